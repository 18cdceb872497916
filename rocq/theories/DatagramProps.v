(** Properties C01-C11: datagrams. *)
From Coq Require Import String Ascii List Arith ZArith NArith Bool Lia Sorting.
From Verif Require Import Prelude OMap DatagramModel DatagramSpec DatagramHeap DatagramProofs DatagramEq
  DatagramStmt DatagramRefine DatagramRefine2 DatagramInv DatagramIso DatagramFinite DatagramDiverge DatagramHist.
Import ListNotations.
Open Scope list_scope.

(** A concrete heap used in the examples: node 0 is the dictionary
    {"a": [1, {}], "b": true}; nodes 1-4 are its parts. *)
Definition ex_heap : heap :=
  [ mkNode [("a"%string, Some 1); ("b"%string, Some 4)] [] None TDict;
    mkNode [] [Some 2; Some 3] None TList;
    mkNode [] [] (Some (DInt 1)) TValue;
    mkNode [] [] None TDict;
    mkNode [] [] (Some (DBool true)) TValue ].
Definition ex_tree : dg :=
  Dct [("a"%string, Lst [Val (DInt 1); Dct []]); ("b"%string, Val (DBool true))].

Lemma ex_own : own ex_heap 0 ex_tree [0; 1; 2; 3; 4].
Proof.
  eapply (own_dct _ 0 _ _ [1;2;3;4]); [reflexivity| |reflexivity|].
  - repeat constructor.
  - change [1;2;3;4] with ([1;2;3] ++ [4] ++ []). simpl map. constructor.
    + eapply (own_lst _ 1 _ _ [2;3]); [reflexivity|]. change [2;3] with ([2] ++ [3] ++ []).
      constructor; [constructor; reflexivity|]. constructor; [|constructor].
      eapply (own_dct _ 3 _ _ []); [reflexivity|constructor|reflexivity|constructor].
    + constructor; [constructor; reflexivity|constructor].
Qed.

Example ex_denotes : denotes ex_heap 0 ex_tree.
Proof. eexists. apply ex_own. Qed.

(** * C01 *)

(** Datagram(const Datagram&): the copy has the contents of the source and every
    datagram of the heap keeps its contents. *)
Theorem C01_copy_constructor : forall h l t, denotes h l t ->
  exists N, forall fuel, N <= fuel ->
  exists h' c, dg_copy_ctor fuel l h = (h', Ok c) /\ denotes h' c t /\
    forall x u, denotes h x u -> denotes h' x u.
Proof.
  intros h l t (F & HO). exists (S (dg_depth t)). intros fuel Hf.
  destruct (dg_copy_ctor_own fuel h l t F HO) as (h' & F' & E & O & _ & X & _); [lia|].
  exists h', (length h). split; [exact E|]. split; [eexists; eauto|].
  intros x u (Fx & Hx). exists Fx. eapply own_extends; eauto.
Qed.
Print Assumptions C01_copy_constructor.

(** RawDatagram::Copy, as used for passing raw datagrams around. *)
Theorem C01_raw_copy : forall h l t, denotes h l t ->
  exists N, forall fuel, N <= fuel ->
  exists h' c, raw_copy fuel l h = (h', Ok c) /\ denotes h' c t /\
    forall x u, denotes h x u -> denotes h' x u.
Proof.
  intros h l t (F & HO). exists (S (dg_depth t)). intros fuel Hf.
  destruct (raw_copy_ok t fuel h l F HO) as (h' & c & F' & E & X & O & _); [lia|].
  exists h', c. split; [exact E|]. split; [eexists; eauto|].
  intros x u (Fx & Hx). exists Fx. eapply own_extends; eauto.
Qed.
Print Assumptions C01_raw_copy.

(** Datagram::operator=(const Datagram&): the destination gets the contents the
    source had; every datagram that does not contain the destination (in
    particular the source, unless the destination is a part of it) keeps its contents. *)
Theorem C01_copy_assignment : forall h d td s ts, denotes h d td -> denotes h s ts ->
  exists N, forall fuel, N <= fuel ->
  exists h', dg_assign fuel d s h = (h', Ok tt) /\ denotes h' d ts /\
    forall x u, denotes h x u -> ~ reach h [x] d -> denotes h' x u.
Proof.
  intros h d td s ts (Fd & Hd) (Fs & Hs). exists (S (dg_depth ts)). intros fuel Hf.
  destruct (raw_copy_ok ts fuel h s Fs Hs) as (h1 & c & F1 & E1 & X1 & O1 & N1 & G1); [lia|].
  destruct (own_node _ _ _ _ Hd) as (nd & Hnd & _). pose proof (nth_lt _ _ _ Hnd) as Hdl.
  rewrite Forall_forall in G1.
  assert (HdF : ~ In d F1) by (intros Hi; apply G1 in Hi; lia).
  assert (Hnd1 : nth_error h1 d = Some nd) by (destruct X1 as [_ X1]; rewrite X1; auto).
  destruct (own_move _ _ _ _ _ _ O1 Hnd1 HdF) as (n & Hn & O2).
  exists (list_set d n h1). split; [|split].
  - unfold dg_assign. rewrite (bind_ok _ _ _ _ _ E1). now apply raw_assign_eq with nd.
  - eexists; eauto.
  - intros x u (Fx & Hx) Hr. exists Fx. eapply own_frame; eauto. intros y Hy.
    rewrite list_set_ne.
    + apply X1. pose proof (own_valid _ _ _ _ Hx) as V. rewrite Forall_forall in V. auto.
    + intros <-. apply Hr. eapply (proj1 (own_reach_both h)); eauto. apply reach_env. simpl; auto.
Qed.
Print Assumptions C01_copy_assignment.

(** The contents of a datagram are unique, so "the same" is unambiguous. *)
Theorem C01_contents_unique : forall h l t u, denotes h l t -> denotes h l u -> t = u.
Proof. intros h l t u (F & A) (G & B). apply (own_det _ _ _ _ _ _ A B). Qed.
Print Assumptions C01_contents_unique.

Example C01_example : exists h' c, dg_copy_ctor 10 0 ex_heap = (h', Ok c) /\ c <> 0 /\ denotes h' c ex_tree.
Proof.
  destruct (dg_copy_ctor_own 10 ex_heap 0 ex_tree _ ex_own) as (h' & F' & E & O & _ & X & _); [simpl; lia|].
  exists h', (length ex_heap). split; [exact E|]. split; [discriminate|]. eexists; eauto.
Qed.

(** * C02 *)

(** [cs0] is any history of one client; it then copies its datagram [s]. From there
    on the copy is given to a second party. In every interleaving [cs] of commands of
    the two parties (each working on its own handles, all views and copies derived
    from them included, and each also allowed to copy from the other), the next
    command [ic] leaves everything observable through the other party's handles as it
    was: every reachable node is identical, hence so are the contents. *)
Theorem C02_copy_isolated : forall fuel cs0 h env s h' env',
  run fuel cs0 ([], []) = Some (h, env) ->
  exec fuel (CCopy s) (h, env) = ((h', env'), Ok RHandle) ->
  exists c, env' = env ++ [c] /\
  forall cs st1 ic st2 r,
    irun fuel cs (h', (env, [c])) = Some st1 ->
    iexec fuel ic st1 = (st2, r) ->
    other_env ic st2 = other_env ic st1 /\
    (forall x, reach (fst st1) (other_env ic st1) x -> nth_error (fst st2) x = nth_error (fst st1) x) /\
    (forall l t, In l (other_env ic st1) -> denotes (fst st1) l t -> denotes (fst st2) l t).
Proof.
  intros fuel cs0 h env s h' env' Hr Hc.
  destruct (copy_separate _ _ _ _ _ _ _ Hr Hc) as (c & -> & Hs). exists c. split; auto.
  intros cs st1 ic st2 r H1 H2. pose proof (irun_separate _ _ _ _ Hs H1) as S1.
  destruct (iexec_separate _ _ _ _ _ S1 H2) as (S2 & A & B). split; [auto|]. split; [auto|].
  intros l t Hl Hd. eapply denotes_frame; eauto.
Qed.
Print Assumptions C02_copy_isolated.

Lemma one_sided fuel b cs : forall st st',
  separate st -> Forall (fun c => side c = b) cs -> irun fuel cs st = Some st' ->
  forall l t, In l (if b then snd (snd st) else fst (snd st)) -> denotes (fst st) l t -> denotes (fst st') l t.
Proof.
  induction cs as [|c cs IH]; intros st st' Hs Hb Hr l t Hl Hd.
  - simpl in Hr. injection Hr as <-. auto.
  - inversion Hb as [|? ? Hc Hb']; subst. cbn [irun] in Hr.
    destruct (iexec fuel c st) as [st1 r] eqn:E.
    destruct (iexec_separate _ _ _ _ _ Hs E) as (S1 & A & B).
    assert (Hr' : irun fuel cs st1 = Some st') by (destruct r; first [exact Hr|discriminate Hr]).
    eapply (IH st1 st'); eauto.
    + unfold other_env in A. rewrite A. exact Hl.
    + eapply denotes_frame; eauto.
Qed.

(** In particular: whatever is done through the copy, the older handles keep their
    contents, and whatever is done through older handles, the copy keeps its contents. *)
Theorem C02_whole_sequences : forall fuel cs0 h env s h' env',
  run fuel cs0 ([], []) = Some (h, env) ->
  exec fuel (CCopy s) (h, env) = ((h', env'), Ok RHandle) ->
  exists c, env' = env ++ [c] /\
  (forall cs h2 e2, run fuel cs (h', [c]) = Some (h2, e2) ->
     forall l t, In l env -> denotes h' l t -> denotes h2 l t) /\
  (forall cs h2 e2, run fuel cs (h', env) = Some (h2, e2) ->
     forall t, denotes h' c t -> denotes h2 c t).
Proof.
  intros fuel cs0 h env s h' env' Hr Hc.
  destruct (copy_separate _ _ _ _ _ _ _ Hr Hc) as (c & -> & Hs). exists c. split; auto.
  assert (K : forall (b : bool) cs hh ea eb h2 e2, run fuel cs (hh, if b then ea else eb) = Some (h2, e2) ->
            irun fuel (map (ISide b) cs) (hh, (ea, eb)) = Some (h2, if b then (e2, eb) else (ea, e2))).
  { intros b cs. induction cs as [|x cs IH]; intros hh ea eb h2 e2 H.
    - simpl in *. injection H as <- <-. destruct b; reflexivity.
    - cbn [run] in H. cbn [map irun]. unfold iexec. simpl side. unfold iexec1.
      destruct b.
      + destruct (exec fuel x (hh, ea)) as [[h3 e3] r]. destruct r; first [discriminate H|exact (IH h3 e3 eb _ _ H)].
      + destruct (exec fuel x (hh, eb)) as [[h3 e3] r]. destruct r; first [discriminate H|exact (IH h3 ea e3 _ _ H)]. }
  split.
  - intros cs h2 e2 H l t Hl Hd.
    apply (one_sided fuel false (map (ISide false) cs) _ (h2, (env, e2)) Hs) with (l := l) (t := t); auto.
    + apply Forall_forall. intros x Hx. apply in_map_iff in Hx. destruct Hx as (y & <- & _). reflexivity.
    + exact (K false cs h' env [c] h2 e2 H).
  - intros cs h2 e2 H t Hd.
    apply (one_sided fuel true (map (ISide true) cs) _ (h2, (e2, [c])) Hs) with (l := c) (t := t); auto; [| |now left].
    + apply Forall_forall. intros x Hx. apply in_map_iff in Hx. destruct Hx as (y & <- & _). reflexivity.
    + exact (K true cs h' env [c] h2 e2 H).
Qed.
Print Assumptions C02_whole_sequences.

(** d["a"] = 1; Datagram e(d); then e["a"] = 2, e["b"]; the hypotheses are met and
    the two sides do different things. *)
Example C02_example :
  match run 9 [CNew; CViewKey 0 "a"%string; CAssignVal 1 (DInt 1)] ([], []) with
  | Some (h, env) =>
    match exec 9 (CCopy 0) (h, env) with
    | ((h', env'), Ok RHandle) =>
      env' = env ++ [2] /\
      match irun 9 [ISide false (CViewKey 0 "a"%string); ISide true (CClear 0); ISide false (CAssignVal 1 (DInt 2));
                    ICopyFrom true 0; IAssignFrom false 1 0] (h', (env, [2])) with
      | Some (_, (ea, eb)) => length ea = 3 /\ length eb = 2
      | None => False
      end
    | _ => False
    end
  | None => False
  end.
Proof. vm_compute. auto. Qed.

(** Views, in contrast, are not isolated: the hypothesis that a copy was made matters. *)
Example C02_view_is_not_a_copy :
  exists h1 e1 h2 e2,
  run 9 [CNew; CViewKey 0 "a"%string; CAssignVal 1 (DInt 1)] ([], []) = Some (h1, e1) /\
  run 9 [CNew; CViewKey 0 "a"%string; CAssignVal 1 (DInt 1); CAssignVal 1 (DInt 2)] ([], []) = Some (h2, e2) /\
  denotes h1 0 (Dct [("a"%string, Val (DInt 1))]) /\ denotes h2 0 (Dct [("a"%string, Val (DInt 2))]).
Proof.
  eexists _, _, _, _. split; [reflexivity|]. split; [reflexivity|].
  split; exists [0; 1]; apply (own_dct _ 0 [("a"%string, Some 1)] _ [1]); try reflexivity; try (repeat constructor; fail);
    change [1] with ([1] ++ []); constructor; constructor; reflexivity.
Qed.

(** * C03 *)

(** A client program is a list of statements over datagram variables: declarations,
    copies, and [v[s1]...[sn] op] with keys or indices, including assignment and
    insertion of copies of other variables or of the variable itself. Executed on the
    heap it gives the results of the same program on plain trees, and the variables
    end up holding the trees, with no node shared between two positions. *)
Theorem C03_statements_update_trees : forall ss vs,
  exists N, forall fuel st, N <= fuel -> rep_state st vs ->
  exists st', h_run fuel ss st = (st', snd (spec_run ss vs)) /\ rep_state st' (fst (spec_run ss vs)).
Proof. exact run_sim. Qed.
Print Assumptions C03_statements_update_trees.

Lemma rep_denotes st vs : rep_state st vs -> Forall2 (denotes (fst st)) (snd st) vs.
Proof.
  destruct st as [h env]. intros (F & HO & _). simpl in *. revert vs F HO.
  induction env as [|l env IH]; intros vs F HO; inversion HO; subst; constructor; eauto.
  eexists; eauto.
Qed.

(** From the empty state, with the final contents of each variable spelled out. *)
Theorem C03_programs : forall ss,
  exists N, forall fuel, N <= fuel ->
  exists h env, h_run fuel ss ([], []) = ((h, env), snd (spec_run ss [])) /\
    Forall2 (denotes h) env (fst (spec_run ss [])).
Proof.
  intros ss. destruct (run_sim ss []) as (N & HN). exists N. intros fuel Hf.
  destruct (HN fuel ([], []) Hf) as ([h env] & E & R).
  - exists []. split; [constructor|constructor].
  - exists h, env. split; auto. apply rep_denotes in R. exact R.
Qed.
Print Assumptions C03_programs.

(** d["x"][..]: a write through subscripts is visible in the parent at that position
    and nowhere else. *)
Theorem C03_write_is_local : forall kvs k v k', osorted kvs -> k' <> k ->
  exists kvs', fst (spec_run [SOp 0 [SKey k] (OSet v)] [Dct kvs]) = [Dct kvs'] /\
    olookup k kvs' = Some (Val v) /\ olookup k' kvs' = olookup k' kvs.
Proof.
  intros kvs k v k' Hs Hne. eexists. split; [reflexivity|]. split.
  - now apply olookup_insert_eq.
  - apply olookup_insert_ne. auto.
Qed.
Print Assumptions C03_write_is_local.

Example C03_example :
  fst (spec_run [SDecl TEmpty; SOp 0 [SKey "a"%string; SKey "b"%string] (OSet (DInt 1));
                 SOp 0 [SKey "l"%string] (OAddNew (Some (DStr "x"%string))); SAssign 0 [SKey "c"%string] 0;
                 SOp 0 [SKey "l"%string; SIdx 3] OClear] [])
  = [Dct [("a"%string, Dct [("b"%string, Val (DInt 1))]);
          ("c"%string, Dct [("a"%string, Dct [("b"%string, Val (DInt 1))]); ("c"%string, Emp);
                            ("l"%string, Lst [Val (DStr "x"%string)])]);
          ("l"%string, Lst [Val (DStr "x"%string)])]].
Proof. reflexivity. Qed.

Example C03_example_heap :
  let ss := [SDecl TEmpty; SOp 0 [SKey "a"%string; SKey "b"%string] (OSet (DInt 1)); SAssign 0 [SKey "c"%string] 0;
             SOp 0 [SKey "c"%string; SKey "a"%string; SKey "b"%string] (ORead TyInt); SDeclCopy 0; SEq 0 1] in
  snd (h_run 10 ss ([], [])) = [Ok RHandle; Ok RUnit; Ok RUnit; Ok (RData (DInt 1)); Ok RHandle; Ok (RBool true)].
Proof. reflexivity. Qed.

(** * C04 *)

(** After any history, raw pointer insertion and memberwise assignment included, each
    node holds only the kind of content its type says. *)
Theorem C04_one_kind_of_content : forall fuel cs h env,
  run fuel cs ([], []) = Some (h, env) ->
  forall l n, nth_error h l = Some n ->
  match nd_type n with
  | TEmpty => nd_dict n = [] /\ nd_list n = [] /\ nd_val n = None
  | TList => nd_dict n = [] /\ nd_val n = None
  | TDict => nd_list n = [] /\ nd_val n = None
  | TValue => nd_dict n = [] /\ nd_list n = []
  end.
Proof.
  intros fuel cs h env Hr l n Hn.
  destruct (run_scoped _ _ _ _ _ _ scoped_nil Hr) as [A _]. apply (A l n Hn).
Qed.
Print Assumptions C04_one_kind_of_content.

(** After any history, a call that changes the type of a datagram leaves exactly the new
    content: nothing the node held earlier is present afterwards. *)
Theorem C04_type_change_discards : forall fuel cs h env s l n,
  run fuel cs ([], []) = Some (h, env) ->
  nth_error env s = Some l -> nth_error h l = Some n ->
  (forall k, nd_type n <> TDict ->
     exists h', fst (exec fuel (CViewKey s k) (h, env)) = (h', env ++ [length h]) /\
       nth_error h' l = Some (mkNode [(k, Some (length h))] [] None TDict) /\
       nth_error h' (length h) = Some empty_node) /\
  (forall j p, nd_type n <> TList -> nth_error env j = Some p ->
     exists h', fst (exec fuel (CAdd s (Some j)) (h, env)) = (h', env) /\
       nth_error h' l = Some (mkNode [] [Some p] None TList)) /\
  (forall i, nd_type n <> TList ->
     exists h', exec fuel (CViewIdx s i) (h, env) = ((h', env), Throw (IndexOutOfBounds i)) /\
       nth_error h' l = Some (mkNode [] [] None TList)) /\
  (forall v, exists h', fst (exec fuel (CAssignVal s v) (h, env)) = (h', env) /\
       nth_error h' l = Some (mkNode [] [] (Some v) TValue)).
Proof.
  intros fuel cs h env s l n Hr Hs Hn.
  destruct (run_scoped _ _ _ _ _ _ scoped_nil Hr) as [A _]. destruct (A l n Hn) as [[So Sh] _].
  pose proof (nth_lt _ _ _ Hn) as Hl.
  assert (Nd : nd_type n <> TDict -> nd_dict n = []) by (destruct (nd_type n); tauto).
  assert (Nl : nd_type n <> TList -> nd_list n = []) by (destruct (nd_type n); tauto).
  repeat split.
  - intros k Hk. simpl. unfold with_handle. rewrite Hs. unfold with_new, dg_view_key.
    pose proof (raw_get_key_eq _ _ k _ Hn) as E. rewrite (Nd Hk) in E. simpl in E.
    rewrite (bind_ok _ _ _ _ _ E). simpl. eexists. split; [reflexivity|].
    assert (Hn0 : nth_error (h ++ [empty_node]) l = Some n) by (rewrite nth_error_app1; auto).
    split.
    + erewrite nth_set_eq by eauto. unfold as_dict. destruct (nd_type n); try reflexivity. tauto.
    + rewrite list_set_ne by lia. apply nth_error_app_new.
  - intros j p Hk Hj. simpl. unfold with_handle. rewrite Hs, Hj. unfold with_res.
    rewrite (raw_add_eq _ _ _ _ Hn). simpl. eexists. split; [reflexivity|].
    erewrite nth_set_eq by eauto. rewrite (Nl Hk). unfold as_list. destruct (nd_type n); try reflexivity. tauto.
  - intros i Hk. simpl. unfold with_handle. rewrite Hs. unfold with_new, dg_view_idx, bind.
    rewrite (raw_get_idx_eq _ _ _ _ Hn). rewrite (Nl Hk). destruct i; simpl; (eexists; split; [reflexivity|]);
    erewrite nth_set_eq by eauto; unfold as_list; destruct (nd_type n); simpl; rewrite ?(Nl Hk); try reflexivity; tauto.
  - intros v. simpl. unfold with_handle. rewrite Hs. unfold with_res, dg_assign_val, raw_set_value.
    rewrite (raw_set_data_eq _ _ _ _ Hn). simpl. eexists. split; [reflexivity|].
    erewrite nth_set_eq by eauto. unfold value_node. destruct (nd_type n); try reflexivity.
    destruct Sh as [-> ->]. reflexivity.
Qed.
Print Assumptions C04_type_change_discards.

Example C04_example :
  exists h env n, run 9 [CNew; CViewKey 0 "a"%string; CAdd 0 (Some 1); CAssignVal 1 (DInt 3); CAdd 1 (Some 0)] ([], []) = Some (h, env) /\
    nth_error h 0 = Some n /\ nd_type n = TList /\ nd_dict n = [].
Proof. repeat eexists. Qed.

(** * C05 *)

(** operator== decides [dg_same], the structural relation of DatagramSpec. *)
Theorem C05_equality_is_structural : forall h a b ta tb, denotes h a ta -> denotes h b tb ->
  exists N, forall fuel, N <= fuel ->
  exists r, dg_eq fuel h a b = Ok r /\ (r = true <-> dg_same ta tb).
Proof.
  intros h a b ta tb Ha Hb. exists (S (dg_depth ta)). intros fuel Hf.
  exists (spec_eqb ta tb). split; [apply dg_eq_spec; auto; lia|]. apply spec_eqb_same.
Qed.
Print Assumptions C05_equality_is_structural.

(** The comparison a client writes: both operands are the named ones. *)
Theorem C05_command : forall h env i j a b ta tb,
  nth_error env i = Some a -> nth_error env j = Some b -> denotes h a ta -> denotes h b tb ->
  exists N, forall fuel, N <= fuel ->
  exists r, exec fuel (CEq i j) (h, env) = ((h, env), Ok (RBool r)) /\ (r = true <-> dg_same ta tb).
Proof.
  intros h env i j a b ta tb Ei Ej Ha Hb.
  destruct (C05_equality_is_structural h a b ta tb Ha Hb) as (N & HN). exists N. intros fuel Hf.
  destruct (HN fuel Hf) as (r & E & Hr). exists r. split; [|exact Hr].
  simpl. unfold with_handle. rewrite Ei, Ej, E. reflexivity.
Qed.
Print Assumptions C05_command.

(** The relation itself: dictionaries are compared as sets of keys with their values. *)
Theorem C05_dictionaries_by_key : forall m n, osorted m -> osorted n ->
  (dg_same (Dct m) (Dct n) <->
   forall k, match olookup k m, olookup k n with
             | Some x, Some y => dg_same x y
             | None, None => True
             | _, _ => False
             end).
Proof. exact dg_same_dct. Qed.
Print Assumptions C05_dictionaries_by_key.

Theorem C05_symmetric : forall a b, dg_same a b -> dg_same b a.
Proof. exact dg_same_sym. Qed.
Print Assumptions C05_symmetric.
Theorem C05_transitive : forall a b c, dg_same a b -> dg_same b c -> dg_same a c.
Proof. exact dg_same_trans. Qed.
Print Assumptions C05_transitive.
Theorem C05_reflexive_iff_no_nan : forall t, dg_same t t <-> ~ has_nan t.
Proof. intros t. symmetry. apply dg_same_refl. Qed.
Print Assumptions C05_reflexive_iff_no_nan.

(** Doubles, by the fields of their 64 bits: a NaN is equal to nothing, not even itself; otherwise the bits decide, except that the
    two zeros are equal. *)
Definition ieee_nan (b : N) : Prop := ((b / 2 ^ 52) mod 2 ^ 11 = 2047 /\ b mod 2 ^ 52 <> 0)%N.
Theorem C05_doubles : forall a b, (a < 2 ^ 64)%N -> (b < 2 ^ 64)%N ->
  (dg_same (Val (DDouble a)) (Val (DDouble b)) <-> ~ ieee_nan a /\ ~ ieee_nan b /\ (a = b \/ (a = 0 \/ a = 2 ^ 63) /\ (b = 0 \/ b = 2 ^ 63))%N).
Proof.
  assert (forall x, (x < 2 ^ 64)%N -> (dbl_is_nan x = true <-> ieee_nan x)) as Nan.
  { intros x L. unfold dbl_is_nan, dbl_abs, ieee_nan. rewrite N.ltb_lt. change (2 ^ 63)%N with (2 ^ 52 * 2 ^ 11)%N. rewrite N.mod_mul_r by discriminate.
    pose proof (N.mod_lt x (2 ^ 52) ltac:(discriminate)) as R. pose proof (N.mod_lt (x / 2 ^ 52) (2 ^ 11) ltac:(discriminate)) as S.
    generalize dependent (x mod 2 ^ 52)%N. generalize dependent ((x / 2 ^ 52) mod 2 ^ 11)%N. clear L. intros q Q r R.
    change (2 ^ 52)%N with 4503599627370496%N in *. change (2 ^ 11)%N with 2048%N in *. change 0x7ff0000000000000%N with 9218868437227405312%N. lia. }
  assert (forall x, (x < 2 ^ 64)%N -> (dbl_is_zero x = true <-> (x = 0 \/ x = 2 ^ 63)%N)) as Zero.
  { intros x L. unfold dbl_is_zero, dbl_abs. rewrite N.eqb_eq. change (2 ^ 64)%N with 18446744073709551616%N in L.
    change (2 ^ 63)%N with 9223372036854775808%N. pose proof (N.div_mod' x 9223372036854775808) as D.
    pose proof (N.mod_lt x 9223372036854775808 ltac:(discriminate)) as R.
    generalize dependent (x mod 9223372036854775808)%N. generalize dependent (x / 9223372036854775808)%N. intros q r D R. lia. }
  intros a b La Lb. pose proof (spec_eqb_same (Val (DDouble a)) (Val (DDouble b))) as Q. rewrite <- Q. simpl. unfold dbl_eqb.
  pose proof (Nan _ La) as Na. pose proof (Nan _ Lb) as Nb. pose proof (Zero _ La) as Za. pose proof (Zero _ Lb) as Zb. clear Nan Zero Q.
  rewrite !andb_true_iff, orb_true_iff, andb_true_iff, N.eqb_eq. rewrite Za, Zb, !negb_true_iff, <- !not_true_iff_false, Na, Nb. tauto.
Qed.
Print Assumptions C05_doubles.

Example C05_doubles_case : ieee_nan 0x7ff8000000000000 /\ ieee_nan 0xfff0000000000001 /\ ~ ieee_nan 0x7ff0000000000000 /\ ~ ieee_nan 0x3ff0000000000000 /\
  ~ dg_same (Val (DDouble 0x7ff8000000000000)) (Val (DDouble 0x7ff8000000000000)).
Proof.
  split; [split; [reflexivity|discriminate]|]. split; [split; [reflexivity|discriminate]|].
  split; [intros (_ & E); apply E; reflexivity|]. split; [intros (E & _); discriminate E|]. intros H. apply spec_eqb_same in H. discriminate.
Qed.

Example C05_example : dg_same ex_tree ex_tree /\ ~ dg_same ex_tree (Dct []) /\
  dg_same (Val (DDouble 0)) (Val (DDouble (2 ^ 63))) /\ ~ dg_same (Val (DInt 0)) (Val (DBool false)).
Proof.
  split; [apply spec_eqb_same; reflexivity|]. split; [intros H; apply spec_eqb_same in H; discriminate|].
  split; [apply spec_eqb_same; reflexivity|]. intros H; apply spec_eqb_same in H; discriminate.
Qed.

Example C05_command_case :
  exec 20 (CEq 0 1) (ex_heap ++ [mkNode [] [] None TEmpty], [0; length ex_heap]) =
    ((ex_heap ++ [mkNode [] [] None TEmpty], [0; length ex_heap]), Ok (RBool false)) /\
  exec 20 (CEq 0 0) (ex_heap, [0]) = ((ex_heap, [0]), Ok (RBool true)).
Proof. split; reflexivity. Qed.

(** * C06 *)

Lemma bound_op v p o vs : stmt_bound (SOp v p o) vs = S (max_depth vs).
Proof. unfold stmt_bound. lia. Qed.

(** Starting from a dictionary [init] in variable 0 and any other variables [rest],
    after any list of key assignments and removals: *)
Theorem C06_dictionary_is_a_map : forall init rest ops,
  osorted init -> Forall (dop_ok rest) ops ->
  exists N, forall fuel st, N <= fuel -> rep_state st (Dct init :: rest) ->
  exists st' rs kvs, h_run fuel (map dict_stmt ops) st = (st', rs) /\
    (* each operation succeeds, except removing an absent key *)
    (forall p o q, ops = p ++ o :: q -> nth_error rs (length p) = Some (dop_result init rest p o)) /\
    (* the dictionary and the other variables afterwards *)
    rep_state st' (Dct kvs :: rest) /\ osorted kvs /\
    (forall k, olookup k kvs = expected init rest ops k) /\
    (* KeyExists *)
    (forall k, h_stmt fuel (SOp 0 [] (OExists k)) st' =
               (st', Ok (RBool (match expected init rest ops k with Some _ => true | None => false end)))) /\
    (* GetCount: number of live keys *)
    (exists live, NoDup live /\ (forall k, In k live <-> expected init rest ops k <> None) /\
       h_stmt fuel (SOp 0 [] OCount) st' = (st', Ok (RCount (N.modulo (N.of_nat (length live)) (2 ^ 32))))) /\
    (* reading a live key *)
    (forall k v, expected init rest ops k = Some (Val v) ->
       snd (h_stmt fuel (SOp 0 [SKey k] (ORead (data_ty v))) st') = Ok (RData v)).
Proof.
  intros init rest ops Hi Hok.
  destruct (dict_run init rest Hi ops [] init Hok Hi (fun k => eq_refl)) as (kvs & rs & E & S' & L' & R').
  destruct (run_sim (map dict_stmt ops) (Dct init :: rest)) as (N & HN).
  set (B := max_depth (Dct kvs :: rest)).
  exists (Nat.max N (S B)). intros fuel st Hf HR.
  assert (HfB : S B <= fuel) by lia.
  destruct (HN fuel st) as (st' & E' & R2); auto; [lia|]. clear Hf HN.
  rewrite E in E', R2. cbn [fst snd] in E', R2.
  exists st', rs, kvs. split; [auto|]. split; [auto|]. split; [auto|]. split; [auto|]. split; [auto|].
  assert (Q : forall k v, expected init rest ops k = Some (Val v) ->
            snd (h_stmt fuel (SOp 0 [SKey k] (ORead (data_ty v))) st') = Ok (RData v)).
  { intros k v Hv.
    destruct (stmt_sim (SOp 0 [SKey k] (ORead (data_ty v))) (Dct kvs :: rest) fuel st') as (st2 & E2 & _).
    - rewrite bound_op. exact HfB.
    - exact R2.
    - rewrite E2. simpl. unfold on_var. simpl. rewrite L'. simpl. rewrite Hv. simpl.
      assert (T : vty_eqb (data_ty v) (data_ty v) = true) by (destruct v; simpl; auto; apply String.eqb_refl).
      rewrite T. reflexivity. }
  split; [|split; [|exact Q]]; clear Q.
  all: destruct st' as [h env]; pose proof R2 as (F & HO & HND); cbn [fst snd] in HO;
  inversion HO as [|? ? ? ? F1 F2 H1 H2]; subst; (destruct env as [|l env]; [discriminate|]).
  all: simpl in *; match goal with H : Some _ :: _ = Some _ :: _ |- _ => injection H as -> ->; subst end;
  inversion H1 as [| | |? m ? F0 Hn Hs Hk HOs]; subst.
  - assert (Klook : forall k, match olookup k m with Some _ => true | None => false end =
                              match expected init rest ops k with Some _ => true | None => false end).
    { intros k. rewrite <- L'. simpl. pose proof (olookup_some_iff_key k m) as A. pose proof (olookup_some_iff_key k kvs) as B0.
      rewrite Hk in A. destruct (olookup k m), (olookup k kvs); auto; exfalso; intuition congruence. }
    intros k. unfold with_handle. simpl. unfold with_res, bind, raw_key_exists, load, ret. simpl.
    unfold bind. rewrite Hn. simpl. rewrite Klook. reflexivity.
  - exists (okeys kvs). split; [now apply osorted_NoDup|]. split.
    + intros k. rewrite <- L'. apply olookup_some_iff_key.
    + unfold with_handle. simpl. unfold with_res, bind, raw_get_count, load, ret. simpl. unfold bind. rewrite Hn. simpl.
      unfold to_unsigned. rewrite <- Hk. unfold okeys. rewrite map_length. reflexivity.
Qed.
Print Assumptions C06_dictionary_is_a_map.

(** Removing an absent key changes nothing at all, in any heap. *)
Theorem C06_remove_absent_key : forall h l n k,
  nth_error h l = Some n -> nd_type n = TDict -> olookup k (nd_dict n) = None ->
  raw_remove_key l k h = (h, Throw (KeyNotFound k)).
Proof. intros h l n k Hn Ht Hk. rewrite (raw_remove_key_eq _ _ _ _ Hn), Ht, Hk. reflexivity. Qed.
Print Assumptions C06_remove_absent_key.

Example C06_example :
  let ops := [DPut "a"%string (DInt 1); DPutFrom "b"%string 0; DDel "a"%string; DDel "z"%string; DPut "b"%string (DInt 2)] in
  let rest := [Lst [Val (DInt 7)]] in
  Forall (dop_ok rest) ops /\ expected [] rest ops "b"%string = Some (Val (DInt 2)) /\
  expected [] rest ops "a"%string = None /\
  snd (h_run 9 (map dict_stmt ops) (fst (h_run 9 [SDecl TDict; SDecl TList; SOp 1 [] (OAddNew (Some (DInt 7)))] ([], [])))) =
  [Ok RUnit; Ok RUnit; Ok RUnit; Throw (KeyNotFound "z"%string); Ok RUnit].
Proof. repeat split; repeat constructor. Qed.

(** * C07 *)

(** Any history of additions, assignments by index and removals on a list behaves as on
    a sequence; the same results, the same exceptions, the same final items. *)
Theorem C07_list_is_a_sequence : forall ts rest ops,
  Forall (lop_ok rest) ops ->
  exists N, forall fuel st, N <= fuel -> rep_state st (Lst ts :: rest) ->
  let us := fst (seq_run rest ts ops) in
  exists st', h_run fuel (map list_stmt ops) st = (st', snd (seq_run rest ts ops)) /\
    rep_state st' (Lst us :: rest) /\
    (* GetCount *)
    h_stmt fuel (SOp 0 [] OCount) st' = (st', Ok (RCount (N.modulo (N.of_nat (length us)) (2 ^ 32)))) /\
    (* reading by index *)
    (forall i v, nth_error us i = Some (Val v) ->
       snd (h_stmt fuel (SOp 0 [SIdx i] (ORead (data_ty v))) st') = Ok (RData v)) /\
    (forall i o, length us <= i ->
       snd (h_stmt fuel (SOp 0 [SIdx i] o) st') = Throw (IndexOutOfBounds i)).
Proof.
  intros ts rest ops Hok.
  pose proof (list_run rest ops ts Hok) as E.
  destruct (run_sim (map list_stmt ops) (Lst ts :: rest)) as (N & HN).
  set (us := fst (seq_run rest ts ops)) in *.
  set (B := max_depth (Lst us :: rest)).
  exists (Nat.max N (S B)). intros fuel st Hf HR us'. subst us'.
  assert (HfB : S B <= fuel) by lia.
  destruct (HN fuel st) as (st' & E' & R2); auto; [lia|]. clear Hf HN.
  rewrite E in E', R2. cbn [fst snd] in E', R2.
  exists st'. split; [auto|]. split; [auto|].
  assert (Q : forall p o, snd (h_stmt fuel (SOp 0 p o) st') = snd (spec_at p (spec_op o) (Lst us))).
  { intros p o. destruct (stmt_sim (SOp 0 p o) (Lst us :: rest) fuel st') as (st2 & E2 & _).
    - rewrite bound_op. exact HfB.
    - exact R2.
    - rewrite E2. simpl. unfold on_var. cbn [nth_error]. now destruct (spec_at p (spec_op o) (Lst us)). }
  split; [|split].
  - destruct st' as [h env]. pose proof R2 as (F & HO & HND). cbn [fst snd] in HO.
    inversion HO as [|? ? ? ? F1 F2 H1 H2]; subst. destruct env as [|l env]; [discriminate|].
    simpl in *. match goal with H : Some _ :: _ = Some _ :: _ |- _ => injection H as -> ->; subst end.
    inversion H1 as [| |? ps ? F0 Hn HOs|]; subst.
    unfold with_handle. simpl. unfold with_res, bind, raw_get_count, load, ret. simpl. unfold bind. rewrite Hn. simpl.
    unfold to_unsigned. rewrite (owns_length _ _ _ _ HOs). reflexivity.
  - intros i v Hv. rewrite Q. simpl. rewrite Hv. simpl.
    assert (T : vty_eqb (data_ty v) (data_ty v) = true) by (destruct v; simpl; auto; apply String.eqb_refl).
    rewrite T. reflexivity.
  - intros i o Hi. rewrite Q. simpl. destruct (nth_error us i) eqn:En; [apply nth_lt in En; lia|]. reflexivity.
Qed.
Print Assumptions C07_list_is_a_sequence.

Example C07_example :
  let ops := [LAdd (Some (DInt 1)); LAddFrom 0; LAdd None; LDel 0; LPut 1 (DBool true); LDel 2] in
  seq_run [Val (DStr "s"%string)] [] ops =
    ([Val (DStr "s"%string); Val (DBool true)],
     [Ok RUnit; Ok RUnit; Ok RUnit; Ok RUnit; Ok RUnit; Throw (IndexOutOfBounds 2)]).
Proof. reflexivity. Qed.

(** * C08 *)

(** In every heap, if Remove (by key or index), GetCount, Clear or a typed read raises
    an exception, nothing has changed. *)
Theorem C08_failing_calls_change_nothing : forall fuel c st st' e,
  match c with
  | CRemoveKey _ _ | CRemoveIdx _ _ | CGetCount _ | CClear _ | CRead _ _ => True
  | _ => False
  end ->
  exec fuel c st = (st', Throw e) -> st' = st.
Proof.
  intros fuel c [h env] st' e Hc E.
  destruct c; try (destruct Hc; fail); simpl in E; unfold with_handle in E;
    (destruct (nth_error env _) as [l|]; [|discriminate]); unfold with_res in E.
  - unfold raw_remove_key, bind, load in E. destruct (nth_error h l) as [n|]; [|discriminate].
    destruct (nd_type n); simpl in E; try (injection E as <- _; reflexivity).
    destruct (olookup k (nd_dict n)); [|simpl in E; injection E as <- _; reflexivity].
    unfold store in E. destruct (nth_error h l); discriminate.
  - unfold raw_remove_idx, bind, load in E. destruct (nth_error h l) as [n|]; [|discriminate].
    destruct (nd_type n); simpl in E; try (injection E as <- _; reflexivity).
    destruct (nth_error (nd_list n) i); [|simpl in E; injection E as <- _; reflexivity].
    unfold store in E. destruct (nth_error h l); discriminate.
  - unfold raw_clear, bind, load in E. destruct (nth_error h l) as [n|] eqn:En; [|discriminate].
    destruct (nd_type n); simpl in E; try (injection E as <- _; reflexivity);
    unfold store in E; rewrite En in E; discriminate.
  - unfold raw_get_count, bind, load in E. destruct (nth_error h l) as [n|] eqn:En; [|discriminate].
    destruct (nd_type n); simpl in E; try discriminate; injection E as <- _; reflexivity.
  - unfold raw_read, bind, load in E. destruct (nth_error h l) as [n|] eqn:En; [|discriminate].
    destruct (nd_val n) as [d|]; [destruct (vty_eqb (data_ty d) ty)|]; simpl in E; try discriminate;
      injection E as <- _; reflexivity.
Qed.
Print Assumptions C08_failing_calls_change_nothing.

(** A subscript by index that raises leaves a list as it was; any other datagram has
    become an empty list (any state reached by a history). *)
Theorem C08_failing_subscript : forall fuel cs h env s l n i st' e,
  run fuel cs ([], []) = Some (h, env) ->
  nth_error env s = Some l -> nth_error h l = Some n ->
  exec fuel (CViewIdx s i) (h, env) = (st', Throw e) ->
  e = IndexOutOfBounds i /\
  st' = (match nd_type n with TList => h | _ => list_set l (mkNode [] [] None TList) h end, env).
Proof.
  intros fuel cs h env s l n i st' e Hr Hs Hn E.
  destruct (run_scoped _ _ _ _ _ _ scoped_nil Hr) as [A _]. destruct (A l n Hn) as [[So Sh] _].
  simpl in E. unfold with_handle in E. rewrite Hs in E. unfold with_new, dg_view_idx, bind in E.
  rewrite (raw_get_idx_eq _ _ _ _ Hn) in E.
  destruct (nth_error (nd_list n) i) as [[c|]|] eqn:Ei; try discriminate.
  simpl in E. injection E as <- <-. split; auto. f_equal. unfold as_list.
  destruct (nd_type n) eqn:Ty.
  - destruct Sh as (_ & -> & _). reflexivity.
  - apply list_set_same. auto.
  - destruct Sh as [-> _]. reflexivity.
  - destruct Sh as [_ ->]. reflexivity.
Qed.
Print Assumptions C08_failing_subscript.

(** The loss of contents does happen. *)
Theorem C08_no_state_change_on_exception_refuted :
  exists cs st st' e, run 9 cs ([], []) = Some st /\ exec 9 (CViewIdx 0 0) st = (st', Throw e) /\
    denotes (fst st) 0 (Val (DInt 5)) /\ denotes (fst st') 0 (Lst []).
Proof.
  exists [CNewVal (DInt 5)]. eexists _, _, _. split; [reflexivity|]. split; [reflexivity|].
  split; exists [0]; econstructor; try reflexivity. constructor.
Qed.
Print Assumptions C08_no_state_change_on_exception_refuted.

Example C08_example : exists h, exec 9 (CRemoveKey 0 "k"%string) (h, [0]) = ((h, [0]), Throw (KeyNotFound "k"%string)).
Proof. exists ex_heap. reflexivity. Qed.

(** * C09 *)

(** In every heap: after assigning a value, a read with the stored type returns it and
    a read with any other type raises. *)
Theorem C09_read_after_write : forall h l v h', dg_assign_val l v h = (h', Ok tt) ->
  forall ty, raw_read l ty h' = (h', if vty_eqb (data_ty v) ty then Ok v else Throw InvalidOperation).
Proof.
  intros h l v h' E ty. unfold dg_assign_val, raw_set_value in E.
  destruct (nth_error h l) as [n|] eqn:Hn.
  - rewrite (raw_set_data_eq _ _ _ _ Hn) in E. injection E as <-.
    unfold raw_read. rewrite (bind_ok _ _ _ _ _ (load_ok _ _ _ (nth_set_eq _ _ _ _ Hn))).
    unfold value_node. destruct (nd_type n); simpl; destruct (vty_eqb (data_ty v) ty); reflexivity.
  - unfold raw_set_data, bind, load in E. rewrite Hn in E. discriminate.
Qed.
Print Assumptions C09_read_after_write.

(** The type test is exact: two of the types coincide only if they are equal. *)
Theorem C09_types_distinct : forall a b, vty_eqb a b = true <-> a = b.
Proof.
  intros a b. destruct a, b; simpl; split; intros H; try discriminate; auto.
  - apply String.eqb_eq in H. now subst.
  - injection H as ->. apply String.eqb_refl.
Qed.
Print Assumptions C09_types_distinct.

(** Reads of lists, dictionaries and empty datagrams raise; no read changes the heap. *)
Theorem C09_read_any : forall h l t ty, denotes h l t ->
  raw_read l ty h =
  (h, match t with
      | Val v => if vty_eqb (data_ty v) ty then Ok v else Throw InvalidOperation
      | _ => Throw InvalidOperation
      end).
Proof.
  intros h l t ty (F & HO). unfold raw_read, bind, load.
  inversion HO; subst; match goal with H : nth_error _ _ = _ |- _ => rewrite H end; simpl; auto.
  destruct (vty_eqb (data_ty d) ty); reflexivity.
Qed.
Print Assumptions C09_read_any.

(** Asking for a type says whether reading it would succeed; it never raises and changes nothing. *)
Theorem C09_is_of_type : forall h l t ty, denotes h l t ->
  raw_is_of_type l ty h = (h, Ok (match t with Val v => vty_eqb (data_ty v) ty | _ => false end)) /\
  ((exists v, raw_read l ty h = (h, Ok v)) <-> raw_is_of_type l ty h = (h, Ok true)).
Proof.
  intros h l t ty D. pose proof (C09_read_any _ _ _ ty D) as R. destruct D as (F & HO).
  assert (raw_is_of_type l ty h = (h, Ok (match t with Val v => vty_eqb (data_ty v) ty | _ => false end))) as E.
  { unfold raw_is_of_type, bind, load. inversion HO; subst; match goal with H : nth_error _ _ = _ |- _ => rewrite H end; reflexivity. }
  split; auto. rewrite E, R. destruct t as [|v|ts|kvs]; try (split; [intros (v & X); discriminate|discriminate]).
  destruct (vty_eqb (data_ty v) ty); split; try discriminate; eauto. intros (x & X). discriminate.
Qed.
Print Assumptions C09_is_of_type.

(** An assigned value survives any commands of the client that work on other,
    separate handles (see C02), and any command that only reads. *)
Theorem C09_reads_are_pure : forall fuel c st,
  match c with
  | CGetType _ | CGetCount _ | CKeyExists _ _ | CRead _ _ | CPath _ _ _ _ | CEq _ _ => True
  | _ => False
  end ->
  fst (exec fuel c st) = st.
Proof.
  intros fuel c [h env] Hc. destruct c; try (destruct Hc; fail); simpl; unfold with_handle;
    (destruct (nth_error env _) as [l|]; [|reflexivity]); unfold with_res.
  - unfold raw_get_type, bind, load. destruct (nth_error h l); reflexivity.
  - unfold raw_get_count, bind, load. destruct (nth_error h l) as [n|]; [|reflexivity]. destruct (nd_type n); reflexivity.
  - unfold raw_key_exists, bind, load. destruct (nth_error h l); reflexivity.
  - unfold raw_read, bind, load. destruct (nth_error h l) as [n|]; [|reflexivity].
    destruct (nd_val n) as [d|]; [destruct (vty_eqb (data_ty d) ty)|]; reflexivity.
  - reflexivity.
  - destruct (nth_error env b); reflexivity.
Qed.
Print Assumptions C09_reads_are_pure.

(** What every reading command of a client answers, from the contents of the
    datagram it names. *)
Theorem C09_reading_commands : forall h env i l t fuel,
  nth_error env i = Some l -> denotes h l t ->
  exec fuel (CGetType i) (h, env) =
    ((h, env), Ok (RType match t with Emp => TEmpty | Val _ => TValue | Lst _ => TList | Dct _ => TDict end)) /\
  exec fuel (CGetCount i) (h, env) =
    ((h, env), match t with
               | Lst ts => Ok (RCount (N.of_nat (length ts) mod 2 ^ 32))
               | Dct kvs => Ok (RCount (N.of_nat (length kvs) mod 2 ^ 32))
               | _ => Throw InvalidOperation
               end) /\
  (forall k, exec fuel (CKeyExists i k) (h, env) =
    ((h, env), Ok (RBool match t with
                         | Dct kvs => match olookup k kvs with Some _ => true | None => false end
                         | _ => false
                         end))) /\
  (forall ty, exec fuel (CRead i ty) (h, env) =
    ((h, env), match t with
               | Val d => if vty_eqb (data_ty d) ty then Ok (RData d) else Throw InvalidOperation
               | _ => Throw InvalidOperation
               end)) /\
  (forall ty p def, exec fuel (CPath i ty p def) (h, env) = ((h, env), Ok (RData (spec_path t ty p def)))).
Proof.
  intros h env i l t fuel Ei HD. split; [|split; [|split; [|split]]]; try intros k; simpl; unfold with_handle; rewrite Ei; unfold with_res.
  - destruct HD as (F & HO). unfold raw_get_type, bind, load.
    inversion HO; subst; match goal with H : nth_error _ _ = _ |- _ => rewrite H end; reflexivity.
  - destruct HD as (F & HO). unfold raw_get_count, bind, load.
    inversion HO as [? Hn|? d' Hn|? ps ts F0 Hn HOs|? m kvs F0 Hn Hs Hk HOs]; subst; rewrite Hn; try reflexivity.
    + cbn [nd_type nd_list ret res_map]. unfold ret, to_unsigned. now rewrite (owns_length _ _ _ _ HOs).
    + cbn [nd_type nd_dict ret res_map]. unfold ret, to_unsigned.
      apply (f_equal (@length string)) in Hk. unfold okeys in Hk. rewrite !map_length in Hk. now rewrite Hk.
  - destruct HD as (F & HO). unfold raw_key_exists, bind, load.
    inversion HO as [? Hn|? d' Hn|? ps ts F0 Hn HOs|? m kvs F0 Hn Hs Hk HOs]; subst; rewrite Hn; try reflexivity.
    cbn [nd_dict]. pose proof (owns_lookup _ _ _ _ k Hk HOs) as HL. unfold ret.
    destruct (olookup k m) as [[|]|], (olookup k kvs); try tauto; reflexivity.
  - rewrite (C09_read_any _ _ _ k HD). destruct t as [|d| |]; try reflexivity. destruct (vty_eqb (data_ty d) k); reflexivity.
  - intros p def. rewrite (dg_path_spec h l t) by exact HD. reflexivity.
Qed.
Print Assumptions C09_reading_commands.

Example C09_reading_case :
  nth_error [0] 0 = Some 0 /\ denotes ex_heap 0 ex_tree /\
  exec 1 (CGetType 0) (ex_heap, [0]) = ((ex_heap, [0]), Ok (RType TDict)) /\
  exec 1 (CRead 0 TyInt) (ex_heap, [0]) = ((ex_heap, [0]), Throw InvalidOperation).
Proof. split; [reflexivity|split; [exact ex_denotes|split; reflexivity]]. Qed.

Example C09_example : exists h', dg_assign_val 1 (DStr "s"%string) ex_heap = (h', Ok tt) /\
  raw_read 1 TyStr h' = (h', Ok (DStr "s"%string)) /\ raw_read 1 TyInt h' = (h', Throw InvalidOperation).
Proof. eexists. repeat split. Qed.

(** * C10 *)

(** Get<T>(path, default) on every datagram and every path: the specification
    [spec_path] splits the path at the slashes, drops one final empty component and
    descends. The call has no effect on the heap (it is a function of it) and never
    throws. *)
Theorem C10_path_lookup : forall h l t ty path def, denotes h l t ->
  dg_path h l ty path def = Ok (spec_path t ty path def).
Proof. exact dg_path_spec. Qed.
Print Assumptions C10_path_lookup.

Theorem C10_found : forall h l t ty path def v, denotes h l t ->
  dg_find t (path_keys path) = Some (Val v) -> data_ty v = ty -> dg_path h l ty path def = Ok v.
Proof.
  intros h l t ty path def v Hd Hf Ht. rewrite (dg_path_spec _ _ _ _ _ _ Hd). unfold spec_path. rewrite Hf.
  replace (vty_eqb (data_ty v) ty) with true; auto. symmetry. now apply C09_types_distinct.
Qed.
Print Assumptions C10_found.

Theorem C10_default : forall h l t ty path def, denotes h l t ->
  (forall v, dg_find t (path_keys path) = Some (Val v) -> data_ty v <> ty) -> dg_path h l ty path def = Ok def.
Proof.
  intros h l t ty path def Hd Hf. rewrite (dg_path_spec _ _ _ _ _ _ Hd). unfold spec_path.
  destruct (dg_find t (path_keys path)) as [[|v| |]|]; auto.
  destruct (vty_eqb (data_ty v) ty) eqn:E; auto. apply C09_types_distinct in E. destruct (Hf v); auto.
Qed.
Print Assumptions C10_default.

Example C10_example :
  dg_path ex_heap 0 TyBool "b/"%string (DBool false) = Ok (DBool true) /\
  dg_path ex_heap 0 TyBool "b//"%string (DBool false) = Ok (DBool false) /\
  dg_path ex_heap 0 TyInt "a/0"%string (DInt 9) = Ok (DInt 9) /\
  path_keys "x//y/"%string = ["x"; ""; "y"]%string.
Proof. repeat split. Qed.

(** * C11 *)

(** If no command inserts a null pointer or a pointer from which the receiving node can
    be reached, the whole history runs without undefined behaviour and every handle ends
    up denoting a finite tree. *)
Theorem C11_histories_stay_finite : forall cs, loop_free_run cs ([], []) ->
  exists N st, (forall fuel, N <= fuel -> run fuel cs ([], []) = Some st) /\
    Forall (fun l => exists t, denotes (fst st) l t) (snd st).
Proof. intros cs H. apply finite_run; auto. constructor. Qed.
Print Assumptions C11_histories_stay_finite.

(** On finite trees, copying and comparing return (Ok) for every sufficient bound. *)
Theorem C11_finite_terminates : forall h l t x u, denotes h l t -> denotes h x u ->
  exists N, forall fuel, N <= fuel ->
  (exists h' c, raw_copy fuel l h = (h', Ok c)) /\ (exists b, dg_eq fuel h l x = Ok b).
Proof.
  intros h l t x u Ht Hu. exists (S (dg_depth t)). intros fuel Hf. split.
  - destruct Ht as (F & HO). destruct (raw_copy_ok t fuel h l F HO) as (h' & c & F' & E & _); [lia|]. eauto.
  - eexists. eapply dg_eq_spec; eauto.
Qed.
Print Assumptions C11_finite_terminates.

(** In any heap reached by a history: a copy returns for some bound exactly when the node
    is a finite tree; if it is not and no null occurs below it, no bound suffices. *)
Theorem C11_copy_returns_iff_finite : forall fuel0 cs h env l,
  run fuel0 cs ([], []) = Some (h, env) -> l < length h ->
  ((exists fuel h' c, raw_copy fuel l h = (h', Ok c)) <-> (exists t, denotes h l t)) /\
  (no_null h l -> ~ (exists t, denotes h l t) -> forall fuel, snd (raw_copy fuel l h) = NoFuel).
Proof.
  intros fuel0 cs h env l Hr Hl.
  destruct (run_scoped _ _ _ _ _ _ scoped_nil Hr) as [A _].
  assert (K : forall fuel h' r, raw_copy fuel l h = (h', r) ->
            match r with Ok _ => finite_at h l | NoFuel => True | _ => ~ no_null h l end).
  { intros fuel h' r E. eapply copy_result; eauto using grown_refl. }
  split; [split|].
  - intros (fuel & h' & c & E). exact (K _ _ _ E).
  - intros (t & F & HO). destruct (raw_copy_ok t (S (dg_depth t)) h l F HO) as (h' & c & F' & E & _); [lia|]. eauto.
  - intros Hn Hf fuel. destruct (raw_copy fuel l h) as [h' r] eqn:E. pose proof (K _ _ _ E) as R.
    destruct r; simpl; auto; tauto.
Qed.
Print Assumptions C11_copy_returns_iff_finite.

(** Adding a node beneath itself: [d.Add(s)] where [d] is [s] or reachable from [s].
    Afterwards no copy of [d] ever returns, nor does the comparison of [d] with itself
    (unless a NaN below it makes the comparison fail first). *)
Theorem C11_self_insertion_diverges : forall fuel0 cs h env d s ld ls h' env',
  run fuel0 cs ([], []) = Some (h, env) ->
  nth_error env d = Some ld -> nth_error env s = Some ls -> reach h [ls] ld ->
  exec fuel0 (CAdd d (Some s)) (h, env) = ((h', env'), Ok RUnit) ->
  (forall t, ~ denotes h' ld t) /\
  (no_null h' ld -> forall fuel, snd (raw_copy fuel ld h') = NoFuel) /\
  (no_null h' ld -> no_nan h' ld -> forall fuel, dg_eq fuel h' ld ld = NoFuel).
Proof.
  intros fuel0 cs h env d s ld ls h' env' Hr Hd Hs Hre E.
  destruct (run_scoped _ _ _ _ _ _ scoped_nil Hr) as [A B].
  assert (Hr2 : run fuel0 [CAdd d (Some s)] (h, env) = Some (h', env')) by (cbn [run]; rewrite E; reflexivity).
  assert (Sc : scoped h' env') by (eapply run_scoped; [|exact Hr2]; split; auto).
  pose proof E as E0. simpl in E0. unfold with_handle in E0. rewrite Hd, Hs in E0. unfold with_res in E0.
  assert (Hl : ld < length h) by (rewrite Forall_forall in B; apply B; eapply nth_error_In; eauto).
  destruct (nth_error h ld) as [n|] eqn:Hn; [|apply nth_error_None in Hn; lia].
  rewrite (raw_add_eq _ _ _ _ Hn) in E0. injection E0 as <- <-.
  set (n' := set_list (nd_list n ++ [Some ls]) (as_list n)) in *.
  assert (Nf : ~ finite_at (list_set ld n' h) ld).
  { eapply insert_cycle; eauto. apply in_kids. right. simpl. apply in_app_iff. simpl. auto. }
  split; [|split].
  - intros t Ht. apply Nf. exists t. auto.
  - intros Hnn fuel. destruct (raw_copy fuel ld (list_set ld n' h)) as [h2 r] eqn:Ec.
    assert (K : match r with Ok _ => finite_at (list_set ld n' h) ld | NoFuel => True | _ => ~ no_null (list_set ld n' h) ld end).
    { destruct Sc as [S1 _]. eapply copy_result; eauto using grown_refl. rewrite list_set_length. auto. }
    destruct r; simpl; auto; tauto.
  - intros Hnn Hna fuel. unfold dg_eq. destruct Sc as [S1 _].
    destruct (eq_self_result fuel (list_set ld n' h) ld n') as [[_ F]|F]; auto.
    + intros l m Hm. apply (S1 l m Hm).
    + eapply nth_set_eq; eauto.
    + intros x m c _ Hm Hc. destruct (S1 x m Hm) as [_ K]. apply K in Hc.
      destruct (nth_error (list_set ld n' h) c) eqn:Ex; eauto. apply nth_error_None in Ex. lia.
    + tauto.
Qed.
Print Assumptions C11_self_insertion_diverges.

(** Datagram d; d.Add(d's node): the hypotheses of the previous theorem are met. *)
Example C11_example_loop : exists h env h' env',
  run 9 [CNew] ([], []) = Some (h, env) /\ nth_error env 0 = Some 0 /\ reach h [0] 0 /\
  exec 9 (CAdd 0 (Some 0)) (h, env) = ((h', env'), Ok RUnit) /\ no_null h' 0 /\ no_nan h' 0.
Proof.
  eexists _, _, _, _. split; [reflexivity|]. split; [reflexivity|]. split; [apply reach_env; simpl; auto|].
  split; [reflexivity|]. split.
  - intros [|[|l]] n _ Hn; simpl in Hn; try discriminate. injection Hn as <-. split; [|discriminate].
    intros p [<-|[]]. discriminate.
  - intros [|[|l]] n b _ Hn; simpl in Hn; try discriminate. injection Hn as <-. discriminate.
Qed.

(** A history with raw sharing that satisfies the hypothesis of the first theorem: one node
    is added to two lists. *)
Example C11_example_shared : loop_free_run [CNew; CNew; CNew; CAdd 0 (Some 2); CAdd 1 (Some 2)] ([], []).
Proof.
  cbn [loop_free_run]. split; [exact I|]. intros N1 st1 r1 H1. pose proof (H1 N1 (le_n _)) as E1. simpl in E1. injection E1 as <- _. clear H1.
  split; [exact I|]. intros N2 st2 r2 H2. pose proof (H2 N2 (le_n _)) as E2. simpl in E2. injection E2 as <- _. clear H2.
  split; [exact I|]. intros N3 st3 r3 H3. pose proof (H3 N3 (le_n _)) as E3. simpl in E3. injection E3 as <- _. clear H3.
  assert (R2 : forall h y, nth_error h 2 = Some empty_node -> reach h [2] y -> y = 2).
  { intros h y H2' Hy. induction Hy as [l Hl|l n c Hl IH Hn Hc].
    - simpl in Hl. intuition.
    - subst l. rewrite H2' in Hn. injection Hn as <-. destruct Hc. }
  split.
  { intros ld ls Ha Hb Hr. simpl in Ha, Hb. injection Ha as <-. injection Hb as <-.
    apply R2 in Hr; [discriminate|reflexivity]. }
  intros N4 st4 r4 H4. pose proof (H4 N4 (le_n _)) as E4. simpl in E4. injection E4 as <- _. clear H4.
  split; [|intros; exact I].
  intros ld ls Ha Hb Hr. simpl in Ha, Hb. injection Ha as <-. injection Hb as <-.
  apply R2 in Hr; [discriminate|reflexivity].
Qed.

(** Property C17: RawBytes. *)
From Coq Require Import String Ascii List Arith Bool Lia.
From Verif Require Import Prelude RawBytesModel.
Import ListNotations.
Open Scope list_scope.

(** ** Specification: buffers and objects hold byte sequences of their own *)

(** A destroyed object, one that holds no block yet, one holding bytes. *)
Inductive aobj : Type := Gone | Nothing | Bytes (bs : list ascii).

Record astate : Type := mkA { a_bufs : list (option (list ascii)); a_objs : list aobj }.
Definition ainit : astate := mkA [] [].

(** The chunk a source designates. *)
Definition chunk (a : astate) (s : src) (size : nat) : option (list ascii) :=
  match
    match s with
    | SNull => None
    | SBuf i off => match nth_error (a_bufs a) i with Some (Some bs) => Some (skipn off bs, off, length bs) | _ => None end
    | SObj o off => match nth_error (a_objs a) o with Some (Bytes bs) => Some (skipn off bs, off, length bs) | _ => None end
    end
  with
  | Some (bs, off, n) => if Nat.leb (off + size) n then Some (firstn size bs) else None
  | None => None
  end.

(** Does the source yield a null pointer? Only the first outcome is an exception. *)
Definition is_null (a : astate) (s : src) : bool :=
  match s with
  | SNull => true
  | SBuf _ _ => false
  | SObj o _ => match nth_error (a_objs a) o with Some Nothing => true | _ => false end
  end.

Definition content (x : aobj) : list ascii := match x with Bytes bs => bs | _ => [] end.

Definition live (a : astate) (o : nat) : option aobj :=
  match nth_error (a_objs a) o with
  | Some Gone | None => None
  | Some x => Some x
  end.

Definition aexec (c : bcmd) (a : astate) : astate * res bret :=
  match c with
  | BBuf bs => (mkA (a_bufs a ++ [Some bs]) (a_objs a), Ok BUnit)
  | BWrite i off x =>
    match nth_error (a_bufs a) i with
    | Some (Some bs) => if Nat.ltb off (length bs) then (mkA (list_set i (Some (list_set off x bs)) (a_bufs a)) (a_objs a), Ok BUnit) else (a, UB)
    | _ => (a, UB)
    end
  | BFree i =>
    match nth_error (a_bufs a) i with
    | Some (Some _) => (mkA (list_set i None (a_bufs a)) (a_objs a), Ok BUnit)
    | _ => (a, UB)
    end
  | BNew => (mkA (a_bufs a) (a_objs a ++ [Nothing]), Ok BUnit)
  | BNewFrom s size =>
    if is_null a s then (mkA (a_bufs a) (a_objs a ++ [Gone]), Throw (ArgumentNull "content"))
    else match chunk a s size with
         | Some bs => (mkA (a_bufs a) (a_objs a ++ [Bytes bs]), Ok BUnit)
         | None => (a, UB)
         end
  | BAppend o s size =>
    match live a o, chunk a s size with
    | Some x, Some bs => (mkA (a_bufs a) (list_set o (Bytes (content x ++ bs)) (a_objs a)), Ok BUnit)
    | _, _ => (a, UB)
    end
  | BCopy o => (a, UB)
  | BDestroy o =>
    match live a o with
    | Some _ => (mkA (a_bufs a) (list_set o Gone (a_objs a)), Ok BUnit)
    | None => (a, UB)
    end
  | BRead o => match live a o with Some x => (a, Ok (BBytes (content x))) | None => (a, UB) end
  | BSize o => match live a o with Some x => (a, Ok (BNum (length (content x)))) | None => (a, UB) end
  end.

Fixpoint arun (cs : list bcmd) (a : astate) : astate * list (res bret) :=
  match cs with
  | [] => (a, [])
  | c :: cs' =>
    match aexec c a with
    | (a', UB) => (a', [UB])
    | (a', r) => let (a'', rs) := arun cs' a' in (a'', r :: rs)
    end
  end.

(** ** Refinement *)

Definition oblock (x : option robj) : option nat := match x with Some r => r_content r | None => None end.

Definition rel_obj (m : mem) (x : option robj) (y : aobj) : Prop :=
  match x, y with
  | None, Gone => True
  | Some (mkR None n), Nothing => n = 0
  | Some (mkR (Some b) n), Bytes bs => nth_error m b = Some (Some bs) /\ n = length bs
  | _, _ => False
  end.

Record rel (st : bstate) (a : astate) : Prop := mkRel {
  rel_nb : length (b_bufs st) = length (a_bufs a);
  rel_no : length (b_objs st) = length (a_objs a);
  rel_b : forall i b, nth_error (b_bufs st) i = Some b -> exists x, nth_error (a_bufs a) i = Some x /\ nth_error (b_mem st) b = Some x;
  rel_o : forall o x, nth_error (b_objs st) o = Some x -> exists y, nth_error (a_objs a) o = Some y /\ rel_obj (b_mem st) x y;
  rel_bb : forall i j b, nth_error (b_bufs st) i = Some b -> nth_error (b_bufs st) j = Some b -> i = j;
  rel_bo : forall i o x b, nth_error (b_bufs st) i = Some b -> nth_error (b_objs st) o = Some x -> oblock x = Some b -> False;
  rel_oo : forall o o' x x' b, nth_error (b_objs st) o = Some x -> nth_error (b_objs st) o' = Some x' ->
    oblock x = Some b -> oblock x' = Some b -> o = o';
  rel_live : forall b bs, nth_error (b_mem st) b = Some (Some bs) ->
    (exists i, nth_error (b_bufs st) i = Some b) \/ (exists o x, nth_error (b_objs st) o = Some x /\ oblock x = Some b) }.

Lemma nth_snoc {A} (l : list A) x i y : nth_error (l ++ [x]) i = Some y ->
  (i < length l /\ nth_error l i = Some y) \/ (i = length l /\ y = x).
Proof.
  intros H. destruct (lt_dec i (length l)) as [Hi|Hi].
  - left. rewrite nth_error_app1 in H by auto. auto.
  - right. assert (i < length (l ++ [x])) by (apply nth_error_Some; congruence). rewrite app_length in *. simpl in *.
    assert (i = length l) by lia. subst. rewrite nth_error_app2 in H by lia. rewrite Nat.sub_diag in H. simpl in H. injection H as <-. auto.
Qed.
Lemma nth_last {A} (l : list A) x : nth_error (l ++ [x]) (length l) = Some x.
Proof. rewrite nth_error_app2 by lia. now rewrite Nat.sub_diag. Qed.
Lemma nth_some_lt {A} (l : list A) i x : nth_error l i = Some x -> i < length l.
Proof. intros H. apply nth_error_Some. congruence. Qed.
Lemma nth_set_cases {A} (l : list A) i x j y : nth_error (list_set i x l) j = Some y ->
  (i = j /\ y = x /\ i < length l) \/ (i <> j /\ nth_error l j = Some y).
Proof.
  rewrite list_set_nth. destruct (Nat.eqb_spec i j) as [->|H]; [|auto].
  destruct (nth_error l j) eqn:E; [|discriminate]. intros K. injection K as <-. left. eauto using nth_some_lt.
Qed.

Lemma rel_obj_frame m m' x y : rel_obj m x y -> (forall b, oblock x = Some b -> nth_error m' b = nth_error m b) -> rel_obj m' x y.
Proof.
  destruct x as [[[b|] n]|], y; simpl; auto. intros [H1 H2] F. rewrite F by auto. auto.
Qed.

Lemma rel_obj_block m x y b : rel_obj m x y -> oblock x = Some b -> exists bs, y = Bytes bs /\ nth_error m b = Some (Some bs).
Proof. destruct x as [[[b'|] n]|], y; simpl; try discriminate; try tauto. intros [H _] E. injection E as <-. eauto. Qed.

(** Reading a source. *)
Lemma src_chunk st a s size : rel st a ->
  match src_ptr st s with
  | Ok p => (is_null a s = true <-> p = None) /\
            peek (b_mem st) p size = match chunk a s size with Some bs => Ok bs | None => UB end
  | UB => is_null a s = false /\ chunk a s size = None
  | _ => False
  end.
Proof.
  intros R. destruct s as [|i off|o off]; simpl.
  - split; [tauto|]. reflexivity.
  - destruct (nth_error (b_bufs st) i) as [b|] eqn:Hb.
    + destruct (rel_b _ _ R i b Hb) as (x & Hx & Hm). unfold chunk. rewrite Hx. simpl. rewrite Hm. split; [split; discriminate|].
      destruct x as [bs|]; auto. destruct (Nat.leb (off + size) (length bs)); auto.
    + split; auto. unfold chunk. apply nth_error_None in Hb. rewrite (rel_nb _ _ R) in Hb. apply nth_error_None in Hb. now rewrite Hb.
  - destruct (nth_error (b_objs st) o) as [x|] eqn:Ho.
    + destruct (rel_o _ _ R o x Ho) as (y & Hy & Hr). unfold chunk. rewrite Hy. destruct x as [[[b|] n]|], y; simpl in Hr; try contradiction; simpl.
      * destruct Hr as [Hr _]. rewrite Hr. split; [split; discriminate|]. destruct (Nat.leb (off + size) (length bs)); auto.
      * split; [tauto|auto].
      * auto.
    + apply nth_error_None in Ho. rewrite (rel_no _ _ R) in Ho. apply nth_error_None in Ho. unfold chunk. rewrite Ho. auto.
Qed.

Lemma live_obj st a o : rel st a ->
  match nth_error (b_objs st) o with
  | Some (Some r) => exists y, live a o = Some y /\ nth_error (a_objs a) o = Some y /\ rel_obj (b_mem st) (Some r) y
  | _ => live a o = None
  end.
Proof.
  intros R. unfold live. destruct (nth_error (b_objs st) o) as [x|] eqn:Ho.
  - destruct (rel_o _ _ R o x Ho) as (y & Hy & Hr). rewrite Hy. destruct x as [[[b|] n]|], y; simpl in Hr; try contradiction; eauto.
  - apply nth_error_None in Ho. rewrite (rel_no _ _ R) in Ho. apply nth_error_None in Ho. now rewrite Ho.
Qed.

Lemma obj_read m r y : rel_obj m (Some r) y -> rb_read r m = Ok (content y) /\ r_size r = length (content y).
Proof.
  destruct r as [[b|] n], y; simpl; try contradiction.
  - intros [H ->]. unfold rb_read. simpl. rewrite H, Nat.leb_refl, firstn_all. auto.
  - intros ->. auto.
Qed.

(** Appending a fresh block and giving it to object slot [o] (a new one, or one whose old
    block is released). *)
Lemma rel_new_obj st a bs :
  rel st a -> rel (mkB (b_mem st ++ [Some bs]) (b_bufs st) (b_objs st ++ [Some (mkR (Some (length (b_mem st))) (length bs))]))
                  (mkA (a_bufs a) (a_objs a ++ [Bytes bs])).
Proof.
  intros R. constructor; simpl.
  - apply (rel_nb _ _ R).
  - rewrite !app_length, (rel_no _ _ R). reflexivity.
  - intros i b Hb. destruct (rel_b _ _ R i b Hb) as (x & Hx & Hm). exists x. split; auto.
    rewrite nth_error_app1; eauto using nth_some_lt.
  - intros o x Ho. apply nth_snoc in Ho. destruct Ho as [[Hlt Ho]|[-> ->]].
    + destruct (rel_o _ _ R o x Ho) as (y & Hy & Hr). exists y. split.
      * rewrite nth_error_app1; eauto using nth_some_lt.
      * eapply rel_obj_frame; eauto. intros b Hb. destruct (rel_obj_block _ _ _ _ Hr Hb) as (bs' & _ & Hm).
        rewrite nth_error_app1; eauto using nth_some_lt.
    + exists (Bytes bs). rewrite (rel_no _ _ R), nth_last. split; auto. simpl. rewrite nth_last. auto.
  - apply (rel_bb _ _ R).
  - intros i o x b Hb Ho Hx. apply nth_snoc in Ho. destruct Ho as [[Hlt Ho]|[-> ->]]; [eapply (rel_bo _ _ R); eauto|].
    simpl in Hx. injection Hx as <-. destruct (rel_b _ _ R i _ Hb) as (x & _ & Hm). apply nth_some_lt in Hm. lia.
  - assert (Old : forall o x, nth_error (b_objs st) o = Some x -> oblock x = Some (length (b_mem st)) -> False).
    { intros o x Ho Hx. destruct (rel_o _ _ R o x Ho) as (y & _ & Hr). destruct (rel_obj_block _ _ _ _ Hr Hx) as (z & _ & Hm).
      apply nth_some_lt in Hm. lia. }
    intros o o' x x' b Ho Ho' Hx Hx'. apply nth_snoc in Ho. apply nth_snoc in Ho'.
    destruct Ho as [[Hlt Ho]|[-> ->]], Ho' as [[Hlt' Ho']|[-> ->]]; auto.
    + eapply (rel_oo _ _ R); eauto.
    + simpl in Hx'. injection Hx' as <-. destruct (Old _ _ Ho Hx).
    + simpl in Hx. injection Hx as <-. destruct (Old _ _ Ho' Hx').
  - intros b bs' H. apply nth_snoc in H. destruct H as [[Hlt H]|[-> H]].
    + destruct (rel_live _ _ R b bs' H) as [(i & Hi)|(o & x & Ho & Hx)]; [left; eauto|right].
      exists o, x. split; auto. rewrite nth_error_app1; eauto using nth_some_lt.
    + right. exists (length (b_objs st)), (Some (mkR (Some (length (b_mem st))) (length bs))). rewrite nth_last. auto.
Qed.

(** Slot [o] gets the new content, its old block (if any) having been released in [m']. *)
Lemma rel_set_obj st a o r y m' r' y' :
  rel st a -> nth_error (b_objs st) o = Some (Some r) -> nth_error (a_objs a) o = Some y ->
  rel_obj m' r' y' ->
  (forall b, oblock r' = Some b -> length (b_mem st) <= b) ->
  (forall b, b < length (b_mem st) -> r_content r <> Some b -> nth_error m' b = nth_error (b_mem st) b) ->
  (forall b bs, nth_error m' b = Some (Some bs) -> r_content r <> Some b /\ (b < length (b_mem st) \/ oblock r' = Some b)) ->
  rel (mkB m' (b_bufs st) (list_set o r' (b_objs st))) (mkA (a_bufs a) (list_set o y' (a_objs a))).
Proof.
  intros R Ho Hy Hr' Hnew Hfr Hlive.
  assert (Hbk : forall o2 x b, nth_error (b_objs st) o2 = Some x -> oblock x = Some b -> b < length (b_mem st)).
  { intros o2 x b H1 H2. destruct (rel_o _ _ R _ _ H1) as (z & _ & Hr). destruct (rel_obj_block _ _ _ _ Hr H2) as (? & _ & Hm).
    eauto using nth_some_lt. }
  constructor; simpl.
  - apply (rel_nb _ _ R).
  - rewrite !list_set_length. apply (rel_no _ _ R).
  - intros i b Hb. destruct (rel_b _ _ R i b Hb) as (x & Hx & Hm). exists x. split; auto.
    rewrite Hfr; eauto using nth_some_lt. intros E. eapply (rel_bo _ _ R i o); eauto.
  - intros o2 x H. apply nth_set_cases in H. destruct H as [(<- & -> & Hlt)|[Hne H]].
    + exists y'. split; auto. rewrite list_set_eq; auto. apply nth_some_lt in Hy. auto.
    + destruct (rel_o _ _ R o2 x H) as (z & Hz & Hr). exists z. rewrite list_set_ne by auto. split; auto.
      eapply rel_obj_frame; eauto. intros b Hb. apply Hfr; eauto.
      intros E. apply Hne. eapply (rel_oo _ _ R o o2); eauto.
  - apply (rel_bb _ _ R).
  - intros i o2 x b Hb H Hx. apply nth_set_cases in H. destruct H as [(<- & -> & Hlt)|[Hne H]].
    + destruct (rel_b _ _ R i b Hb) as (z & _ & Hm). apply nth_some_lt in Hm. apply Hnew in Hx. lia.
    + eapply (rel_bo _ _ R); eauto.
  - intros o1 o2 x x' b H1 H2 Hx Hx'. apply nth_set_cases in H1. apply nth_set_cases in H2.
    destruct H1 as [(<- & -> & Hlt)|[Hne H1]], H2 as [(<- & -> & Hlt')|[Hne' H2]]; auto.
    + apply Hnew in Hx. eapply Hbk in H2; eauto. lia.
    + apply Hnew in Hx'. eapply Hbk in H1; eauto. lia.
    + eapply (rel_oo _ _ R); eauto.
  - intros b bs Hm. destruct (Hlive b bs Hm) as [Hno [Hlt|Hb]].
    + rewrite Hfr in Hm by auto. destruct (rel_live _ _ R b bs Hm) as [(i & Hi)|(o2 & x & Ho2 & Hx)]; [left; eauto|right].
      exists o2, x. split; auto. rewrite list_set_ne; auto. intros <-. rewrite Ho in Ho2. injection Ho2 as <-. auto.
    + right. exists o, r'. split; auto. apply list_set_eq. eauto using nth_some_lt.
Qed.

Lemma chunk_length a s size bs : chunk a s size = Some bs -> length bs = size.
Proof.
  unfold chunk. intros H.
  match type of H with match ?x with _ => _ end = _ => destruct x as [[[l off] n]|] eqn:E; [|discriminate] end.
  destruct (Nat.leb_spec (off + size) n); [|discriminate]. injection H as <-. apply firstn_length_le.
  destruct s as [|i o|o' o]; try discriminate.
  - destruct (nth_error (a_bufs a) i) as [[b|]|]; try discriminate. injection E as <- <- <-. rewrite skipn_length. lia.
  - destruct (nth_error (a_objs a) o') as [[| |b]|]; try discriminate. injection E as <- <- <-. rewrite skipn_length. lia.
Qed.

Lemma step_rel c st a : rel st a -> (forall o, c <> BCopy o) ->
  snd (bexec c st) = snd (aexec c a) /\ (snd (bexec c st) <> UB -> rel (fst (bexec c st)) (fst (aexec c a))).
Proof.
  intros R Hc. destruct c as [bs|i off x|i| |s size|o s size|o|o|o|o]; cbn [bexec aexec]; try (exfalso; eapply Hc; reflexivity).
  - (* BBuf *) simpl. split; auto. intros _. constructor; simpl.
    + rewrite !app_length, (rel_nb _ _ R). reflexivity.
    + apply (rel_no _ _ R).
    + intros i b H. apply nth_snoc in H. destruct H as [[Hlt H]|[-> ->]].
      * destruct (rel_b _ _ R i b H) as (x & Hx & Hm). exists x. rewrite !nth_error_app1; eauto using nth_some_lt.
      * exists (Some bs). rewrite (rel_nb _ _ R), !nth_last. auto.
    + intros o x H. destruct (rel_o _ _ R o x H) as (y & Hy & Hr). exists y. split; auto.
      eapply rel_obj_frame; eauto. intros b Hb. destruct (rel_obj_block _ _ _ _ Hr Hb) as (z & _ & Hm).
      rewrite nth_error_app1; eauto using nth_some_lt.
    + intros i j b H1 H2. apply nth_snoc in H1. apply nth_snoc in H2.
      destruct H1 as [[Hlt H1]|[-> ->]], H2 as [[Hlt' H2]|[-> E]]; auto.
      * eapply (rel_bb _ _ R); eauto.
      * subst b. destruct (rel_b _ _ R _ _ H1) as (z & _ & Hm). apply nth_some_lt in Hm. lia.
      * destruct (rel_b _ _ R _ _ H2) as (z & _ & Hm). apply nth_some_lt in Hm. lia.
    + intros i o x b H1 H2 Hx. apply nth_snoc in H1. destruct H1 as [[Hlt H1]|[-> ->]].
      * eapply (rel_bo _ _ R); eauto.
      * destruct (rel_o _ _ R o x H2) as (y & _ & Hr). destruct (rel_obj_block _ _ _ _ Hr Hx) as (z & _ & Hm). apply nth_some_lt in Hm. lia.
    + apply (rel_oo _ _ R).
    + intros b bs' H. apply nth_snoc in H. destruct H as [[Hlt H]|[-> H]].
      * destruct (rel_live _ _ R b bs' H) as [(i & Hi)|K]; [left|right; auto]. exists i. rewrite nth_error_app1; eauto using nth_some_lt.
      * left. exists (length (b_bufs st)). apply nth_last.
  - (* BWrite *)
    destruct (nth_error (b_bufs st) i) as [b|] eqn:Hb.
    2:{ apply nth_error_None in Hb. rewrite (rel_nb _ _ R) in Hb. apply nth_error_None in Hb. rewrite Hb. simpl. split; [auto|congruence]. }
    destruct (rel_b _ _ R i b Hb) as (z & Hz & Hm). rewrite Hz, Hm. destruct z as [bs|]; [|simpl; split; [auto|congruence]].
    destruct (Nat.ltb off (length bs)); simpl; (split; [auto|]); [|congruence]. intros _. constructor; simpl.
    + rewrite list_set_length. apply (rel_nb _ _ R).
    + apply (rel_no _ _ R).
    + intros j b' H. destruct (Nat.eq_dec i j) as [<-|Hne].
      * rewrite Hb in H. injection H as <-. exists (Some (list_set off x bs)). rewrite !list_set_eq; eauto using nth_some_lt.
      * destruct (rel_b _ _ R j b' H) as (w & Hw & Hm'). exists w. rewrite !list_set_ne; auto.
        intros <-. apply Hne. eapply (rel_bb _ _ R); eauto.
    + intros o w H. destruct (rel_o _ _ R o w H) as (y & Hy & Hr). exists y. split; auto.
      eapply rel_obj_frame; eauto. intros b' Hb'. apply list_set_ne. intros <-. eapply (rel_bo _ _ R i o); eauto.
    + apply (rel_bb _ _ R).
    + apply (rel_bo _ _ R).
    + apply (rel_oo _ _ R).
    + intros b' bs' H. apply nth_set_cases in H. destruct H as [(<- & H & _)|[Hne H]]; [left; eauto|]. eapply (rel_live _ _ R); eauto.
  - (* BFree *)
    destruct (nth_error (b_bufs st) i) as [b|] eqn:Hb.
    2:{ apply nth_error_None in Hb. rewrite (rel_nb _ _ R) in Hb. apply nth_error_None in Hb. rewrite Hb. simpl. split; [auto|congruence]. }
    destruct (rel_b _ _ R i b Hb) as (z & Hz & Hm). unfold release. rewrite Hz, Hm. destruct z as [bs|]; [|simpl; split; [auto|congruence]].
    simpl. split; auto. intros _. constructor; simpl.
    + rewrite list_set_length. apply (rel_nb _ _ R).
    + apply (rel_no _ _ R).
    + intros j b' H. destruct (Nat.eq_dec i j) as [<-|Hne].
      * rewrite Hb in H. injection H as <-. exists None. rewrite !list_set_eq; eauto using nth_some_lt.
      * destruct (rel_b _ _ R j b' H) as (w & Hw & Hm'). exists w. rewrite !list_set_ne; auto.
        intros <-. apply Hne. eapply (rel_bb _ _ R); eauto.
    + intros o w H. destruct (rel_o _ _ R o w H) as (y & Hy & Hr). exists y. split; auto.
      eapply rel_obj_frame; eauto. intros b' Hb'. apply list_set_ne. intros <-. eapply (rel_bo _ _ R i o); eauto.
    + apply (rel_bb _ _ R).
    + apply (rel_bo _ _ R).
    + apply (rel_oo _ _ R).
    + intros b' bs' H. apply nth_set_cases in H. destruct H as [(<- & H & _)|[Hne H]]; [discriminate|]. eapply (rel_live _ _ R); eauto.
  - (* BNew *) simpl. split; auto. intros _. constructor; simpl.
    + apply (rel_nb _ _ R).
    + rewrite !app_length, (rel_no _ _ R). reflexivity.
    + apply (rel_b _ _ R).
    + intros o x H. apply nth_snoc in H. destruct H as [[Hlt H]|[-> ->]].
      * destruct (rel_o _ _ R o x H) as (y & Hy & Hr). exists y. rewrite nth_error_app1; eauto using nth_some_lt.
      * exists Nothing. rewrite (rel_no _ _ R), nth_last. simpl. auto.
    + apply (rel_bb _ _ R).
    + intros i o x b Hb H Hx. apply nth_snoc in H. destruct H as [[Hlt H]|[-> ->]]; [eapply (rel_bo _ _ R); eauto|discriminate].
    + intros o o' x x' b H1 H2 Hx Hx'. apply nth_snoc in H1. apply nth_snoc in H2.
      destruct H1 as [[Hlt H1]|[-> ->]], H2 as [[Hlt' H2]|[-> ->]]; auto; try discriminate. eapply (rel_oo _ _ R); eauto.
    + intros b bs H. destruct (rel_live _ _ R b bs H) as [K|(o & x & Ho & Hx)]; [left; auto|right].
      exists o, x. rewrite nth_error_app1; eauto using nth_some_lt.
  - (* BNewFrom *)
    pose proof (src_chunk st a s size R) as K. destruct (src_ptr st s) as [p| | |]; try contradiction; cbn [res_bind].
    + destruct K as [Kn Kp]. unfold rb_new. destruct p as [p|].
      * destruct (is_null a s); [destruct Kn as [Kn _]; specialize (Kn eq_refl); discriminate|].
        rewrite Kp. destruct (chunk a s size) as [bs|] eqn:Ec; cbn [res_bind]; [|simpl; split; [auto|congruence]].
        unfold alloc. simpl. split; auto. intros _. rewrite <- (chunk_length _ _ _ _ Ec). apply rel_new_obj; auto.
      * destruct Kn as [_ Kn]. rewrite Kn by auto. simpl. split; auto. intros _. constructor; simpl.
        -- apply (rel_nb _ _ R).
        -- rewrite !app_length, (rel_no _ _ R). reflexivity.
        -- apply (rel_b _ _ R).
        -- intros o x H. apply nth_snoc in H. destruct H as [[Hlt H]|[-> ->]].
           ++ destruct (rel_o _ _ R o x H) as (y & Hy & Hr). exists y. rewrite nth_error_app1; eauto using nth_some_lt.
           ++ exists Gone. rewrite (rel_no _ _ R), nth_last. simpl. auto.
        -- apply (rel_bb _ _ R).
        -- intros i o x b Hb H Hx. apply nth_snoc in H. destruct H as [[Hlt H]|[-> ->]]; [eapply (rel_bo _ _ R); eauto|discriminate].
        -- intros o o' x x' b H1 H2 Hx Hx'. apply nth_snoc in H1. apply nth_snoc in H2.
           destruct H1 as [[Hlt H1]|[-> ->]], H2 as [[Hlt' H2]|[-> ->]]; auto; try discriminate. eapply (rel_oo _ _ R); eauto.
        -- intros b bs H. destruct (rel_live _ _ R b bs H) as [K|(o & x & Ho & Hx)]; [left; auto|right].
           exists o, x. rewrite nth_error_app1; eauto using nth_some_lt.
    + destruct K as [-> ->]. simpl. split; [auto|congruence].
  - (* BAppend *)
    unfold with_obj. pose proof (live_obj st a o R) as L.
    destruct (nth_error (b_objs st) o) as [[r|]|] eqn:Ho; [|rewrite L; simpl; split; [auto|congruence]|rewrite L; simpl; split; [auto|congruence]].
    destruct L as (y & -> & Hy & Hr).
    pose proof (src_chunk st a s size R) as K. destruct (src_ptr st s) as [p| | |]; try contradiction; cbn [res_bind].
    + destruct K as [_ Kp]. unfold rb_append. destruct r as [[old|] n]; cbn [r_content r_size].
      * destruct y; simpl in Hr; try contradiction. destruct Hr as [Hm ->].
        assert (Eo : peek (b_mem st) (Some (old, 0)) (length bs) = Ok bs).
        { simpl. rewrite Hm, Nat.leb_refl, firstn_all. reflexivity. }
        rewrite Eo. cbn [res_bind]. rewrite Kp. destruct (chunk a s size) as [bs'|] eqn:Ec; cbn [res_bind]; [|simpl; split; [auto|congruence]].
        unfold alloc, release. rewrite nth_error_app1 by eauto using nth_some_lt. rewrite Hm. cbn [res_bind res_map fst snd content].
        split; auto. intros _. pose proof (nth_some_lt _ _ _ Hm) as Hlt.
        eapply rel_set_obj; eauto.
        -- simpl. rewrite list_set_ne by lia. rewrite nth_last. split; auto. rewrite app_length, (chunk_length _ _ _ _ Ec). auto.
        -- simpl. intros b E. injection E as <-. auto.
        -- simpl. intros b Hb Hne. rewrite list_set_ne by congruence. rewrite nth_error_app1; auto.
        -- simpl. intros b bs'' H. apply nth_set_cases in H. destruct H as [(_ & H & _)|[Hne H]]; [discriminate|].
           split; [congruence|]. apply nth_snoc in H. destruct H as [[H _]|[-> _]]; auto.
      * destruct y; simpl in Hr; try contradiction. subst n. rewrite Kp.
        destruct (chunk a s size) as [bs'|] eqn:Ec; cbn [res_bind]; [|simpl; split; [auto|congruence]].
        unfold alloc. cbn [res_map fst snd content app]. split; auto. intros _. eapply rel_set_obj; eauto.
        -- simpl. rewrite nth_last. rewrite (chunk_length _ _ _ _ Ec). auto.
        -- simpl. intros b E. injection E as <-. auto.
        -- simpl. intros b Hb Hne. rewrite nth_error_app1; auto.
        -- simpl. intros b bs'' H. split; [congruence|]. apply nth_snoc in H. destruct H as [[H _]|[-> _]]; auto.
    + destruct K as [_ ->]. simpl. split; [auto|congruence].
  - (* BDestroy *)
    unfold with_obj. pose proof (live_obj st a o R) as L.
    destruct (nth_error (b_objs st) o) as [[r|]|] eqn:Ho; [|rewrite L; simpl; split; [auto|congruence]|rewrite L; simpl; split; [auto|congruence]].
    destruct L as (y & -> & Hy & Hr). unfold rb_destroy, release. destruct r as [[old|] n]; cbn [r_content].
    + destruct y; simpl in Hr; try contradiction. destruct Hr as [Hm ->]. rewrite Hm. cbn [res_map fst snd]. split; auto. intros _.
      eapply rel_set_obj; eauto; simpl; auto; try discriminate.
      * intros b Hb Hne. apply list_set_ne. congruence.
      * intros b bs' H. apply nth_set_cases in H. destruct H as [(_ & H & _)|[Hne H]]; [discriminate|]. split; [congruence|]. eauto using nth_some_lt.
    + destruct y; simpl in Hr; try contradiction. cbn [res_map fst snd]. split; auto. intros _.
      eapply rel_set_obj; eauto; simpl; auto; try discriminate.
      intros b bs' H. split; [congruence|]. eauto using nth_some_lt.
  - (* BRead *)
    unfold with_obj. pose proof (live_obj st a o R) as L.
    destruct (nth_error (b_objs st) o) as [[r|]|] eqn:Ho; [|rewrite L; simpl; split; [auto|congruence]|rewrite L; simpl; split; [auto|congruence]].
    destruct L as (y & -> & Hy & Hr). destruct (obj_read _ _ _ Hr) as [-> _]. simpl. auto.
  - (* BSize *)
    unfold with_obj. pose proof (live_obj st a o R) as L.
    destruct (nth_error (b_objs st) o) as [[r|]|] eqn:Ho; [|rewrite L; simpl; split; [auto|congruence]|rewrite L; simpl; split; [auto|congruence]].
    destruct L as (y & -> & Hy & Hr). destruct (obj_read _ _ _ Hr) as [_ ->]. simpl. auto.
Qed.

Definition copies (c : bcmd) : bool := match c with BCopy _ => true | _ => false end.

Lemma run_rel cs : forall st a, rel st a -> forallb (fun c => negb (copies c)) cs = true ->
  snd (brun cs st) = snd (arun cs a) /\ (~ In UB (snd (brun cs st)) -> rel (fst (brun cs st)) (fst (arun cs a))).
Proof.
  induction cs as [|c cs IH]; intros st a R Hc; [simpl; auto|]. simpl in Hc. apply andb_true_iff in Hc. destruct Hc as [Hc Hcs].
  destruct (step_rel c st a R) as [E1 E2]. { intros o ->. discriminate. }
  cbn [brun arun]. destruct (bexec c st) as [st' r], (aexec c a) as [a' r']. simpl in E1, E2. subst r'.
  assert (K : r <> UB -> snd (let (st'', rs) := brun cs st' in (st'', r :: rs)) = snd (let (a'', rs) := arun cs a' in (a'', r :: rs)) /\
     (~ In UB (snd (let (st'', rs) := brun cs st' in (st'', r :: rs))) ->
      rel (fst (let (st'', rs) := brun cs st' in (st'', r :: rs))) (fst (let (a'', rs) := arun cs a' in (a'', r :: rs))))).
  { intros Hr. destruct (IH st' a' (E2 Hr) Hcs) as [F1 F2].
    destruct (brun cs st') as [st'' rs], (arun cs a') as [a'' rs']; simpl in F1, F2 |- *; subst rs'. split; auto. }
  destruct r as [x|e| |]; try (apply K; discriminate).
  simpl. split; auto.
Qed.

Lemma rel_init : rel binit ainit.
Proof.
  constructor; simpl; auto; try (intros i; intros; destruct i; discriminate); intros; destruct b; discriminate.
Qed.

(** * C17 *)

(** In any history without implicit copies - any number of buffers and objects, chunks taken
    from buffers or from objects (also the object appended to) - every call has the result
    that it has on independent byte sequences; in particular an object holds the bytes it
    was constructed from followed by the chunks appended, writing or freeing a buffer
    changes no object, a null content raises ArgumentNullException, and the only undefined behaviour is
    reading outside a live buffer or object. *)
Theorem C17_refines_sequences : forall cs, forallb (fun c => negb (copies c)) cs = true ->
  snd (brun cs binit) = snd (arun cs ainit).
Proof. intros cs H. apply run_rel; auto using rel_init. Qed.
Print Assumptions C17_refines_sequences.

(** The same read off directly: chunks appended one after the other from buffers that are
    overwritten and freed afterwards. *)
Definition append_chunk (o i : nat) (c : list ascii) : list bcmd :=
  [BBuf c; BAppend o (SBuf i 0) (length c)] ++ map (fun k => BWrite i k "x"%char) (seq 0 (length c)) ++ [BFree i].
Fixpoint append_chunks (o i : nat) (cs : list (list ascii)) : list bcmd :=
  match cs with [] => [] | c :: cs' => append_chunk o i c ++ append_chunks o (S i) cs' end.

Lemma arun_app cs1 : forall cs2 a, ~ In UB (snd (arun cs1 a)) ->
  arun (cs1 ++ cs2) a = let (a', rs) := arun cs1 a in let (a'', rs') := arun cs2 a' in (a'', rs ++ rs').
Proof.
  induction cs1 as [|c cs1 IH]; intros cs2 a H; simpl in *; [now destruct (arun cs2 a)|].
  destruct (aexec c a) as [a1 r]. destruct r; simpl in *; try (exfalso; tauto).
  all: destruct (arun cs1 a1) as [a2 rs] eqn:E; simpl in H; rewrite IH by (rewrite E; simpl; tauto); rewrite E; destruct (arun cs2 a2); reflexivity.
Qed.

Lemma writes_run bufs objs bs : forall ks, (forall k, In k ks -> k < length bs) -> forall a,
  a = mkA (bufs ++ [Some bs]) objs ->
  exists bs', arun (map (fun k => BWrite (length bufs) k "x"%char) ks) a = (mkA (bufs ++ [Some bs']) objs, map (fun _ => Ok BUnit) ks) .
Proof.
  intros ks. revert bs. induction ks as [|k ks IH]; intros bs Hk a ->; simpl; [eauto|].
  rewrite nth_last. pose proof (Hk k (or_introl eq_refl)). destruct (Nat.ltb_spec k (length bs)); [|lia].
  assert (E : list_set (length bufs) (Some (list_set k "x"%char bs)) (bufs ++ [Some bs]) = bufs ++ [Some (list_set k "x"%char bs)]).
  { clear. induction bufs; simpl; congruence. }
  rewrite E. destruct (IH (list_set k "x"%char bs)) with (a := mkA (bufs ++ [Some (list_set k "x"%char bs)]) objs) as (bs' & K); auto.
  { intros k' Hk'. rewrite list_set_length. apply Hk. simpl; auto. }
  rewrite K. eauto.
Qed.

Lemma append_chunk_run a o x c : live a o = Some x ->
  exists bufs rs, arun (append_chunk o (length (a_bufs a)) c) a = (mkA bufs (list_set o (Bytes (content x ++ c)) (a_objs a)), rs) /\
    length bufs = S (length (a_bufs a)) /\ ~ In UB rs.
Proof.
  intros Hl. unfold append_chunk. cbn [app arun aexec].
  assert (Hl' : live (mkA (a_bufs a ++ [Some c]) (a_objs a)) o = Some x) by exact Hl.
  assert (Ec : chunk (mkA (a_bufs a ++ [Some c]) (a_objs a)) (SBuf (length (a_bufs a)) 0) (length c) = Some c).
  { unfold chunk. simpl. rewrite nth_last. simpl. rewrite Nat.leb_refl, firstn_all. reflexivity. }
  rewrite Hl', Ec. cbn [a_bufs a_objs].
  destruct (writes_run (a_bufs a) (list_set o (Bytes (content x ++ c)) (a_objs a)) c (seq 0 (length c))) with
    (a := mkA (a_bufs a ++ [Some c]) (list_set o (Bytes (content x ++ c)) (a_objs a))) as (bs' & K); auto.
  { intros k Hk. apply in_seq in Hk. lia. }
  assert (NU : forall ks : list nat, ~ In UB (map (fun _ => Ok BUnit) ks)).
  { intros ks. rewrite in_map_iff. intros (? & ? & _). discriminate. }
  rewrite arun_app by (rewrite K; apply NU). rewrite K. cbn [arun aexec a_bufs a_objs]. rewrite nth_last.
  eexists _, _. split; [reflexivity|]. split.
  - rewrite list_set_length, app_length. simpl. lia.
  - simpl. rewrite in_app_iff. intros [H|[H|[H|[H|[]]]]]; try discriminate. eapply NU; eauto.
Qed.

Lemma append_chunks_run cs : forall a o x, live a o = Some x ->
  exists a' rs x', arun (append_chunks o (length (a_bufs a)) cs) a = (a', rs) /\ ~ In UB rs /\
    live a' o = Some x' /\ content x' = content x ++ concat cs.
Proof.
  induction cs as [|c cs IH]; intros a o x Hl; cbn [append_chunks concat].
  - exists a, [], x. simpl. rewrite app_nil_r. auto.
  - destruct (append_chunk_run a o x c Hl) as (bufs & rs & E & Hb & Hu).
    assert (Hl1 : live (mkA bufs (list_set o (Bytes (content x ++ c)) (a_objs a))) o = Some (Bytes (content x ++ c))).
    { unfold live in *. simpl. destruct (nth_error (a_objs a) o) eqn:Eo; [|discriminate]. rewrite list_set_eq; eauto using nth_some_lt. }
    destruct (IH _ _ _ Hl1) as (a' & rs' & x' & E' & Hu' & Hl' & Hc). cbn [a_bufs] in E'. rewrite Hb in E'.
    rewrite arun_app by (rewrite E; auto). rewrite E, E'. exists a', (rs ++ rs'), x'. split; auto. split.
    + rewrite in_app_iff. tauto.
    + split; auto. rewrite Hc. cbn [content]. now rewrite app_assoc.
Qed.

Lemma append_chunks_no_copy o cs : forall i, forallb (fun c => negb (copies c)) (append_chunks o i cs) = true.
Proof.
  induction cs as [|c cs IH]; intros i; simpl; auto. rewrite !forallb_app. rewrite IH. simpl.
  rewrite !andb_true_r. apply forallb_forall. intros x Hx. apply in_map_iff in Hx. destruct Hx as (k & <- & _). reflexivity.
Qed.

(** A history [pre] that ends with object [o] alive: [o] then holds [x]; appending chunks from
    temporary buffers and reading gives [x] followed by the chunks. *)
Theorem C17_concatenation : forall pre o x chunks,
  forallb (fun c => negb (copies c)) pre = true ->
  ~ In UB (snd (brun pre binit)) ->
  snd (brun (pre ++ [BRead o]) binit) = snd (brun pre binit) ++ [Ok (BBytes x)] ->
  exists rs,
    snd (brun (pre ++ append_chunks o (length (b_bufs (fst (brun pre binit)))) chunks ++ [BRead o; BSize o]) binit) =
      snd (brun pre binit) ++ rs ++ [Ok (BBytes (x ++ concat chunks)); Ok (BNum (length (x ++ concat chunks)))] /\ ~ In UB rs.
Proof.
  intros pre o x chunks Hp Hu Hx.
  destruct (run_rel pre binit ainit rel_init Hp) as [E R]. specialize (R Hu).
  rewrite C17_refines_sequences in Hx by (rewrite forallb_app, Hp; reflexivity).
  rewrite C17_refines_sequences.
  2:{ rewrite !forallb_app, Hp, append_chunks_no_copy. reflexivity. }
  rewrite E in *. rewrite arun_app in Hx by auto. rewrite arun_app by auto.
  rewrite (rel_nb _ _ R). destruct (arun pre ainit) as [a rs0]. cbn [fst snd] in *. simpl in Hx.
  assert (Hl : exists y, live a o = Some y /\ content y = x).
  { destruct (live a o) as [y|]; simpl in Hx; apply app_inv_head in Hx; [|discriminate]. injection Hx as <-. eauto. }
  destruct Hl as (y & Hl & <-). destruct (append_chunks_run chunks a o y Hl) as (a' & rs & y' & E' & Hu' & Hl' & Hc).
  rewrite arun_app by (rewrite E'; auto). rewrite E'. simpl. rewrite Hl'. simpl. rewrite Hl'. simpl. rewrite Hc.
  exists rs. auto.
Qed.
Print Assumptions C17_concatenation.

Definition bytes (s : string) : list ascii := list_ascii_of_string s.

(** Buffer "ab", object from it, the object appended to itself, chunks "c", "" and "de". *)
Example C17_example :
  snd (brun ([BBuf (bytes "ab"); BNewFrom (SBuf 0 0) 2; BAppend 0 (SObj 0 1) 1; BFree 0] ++
             append_chunks 0 1 [bytes "c"; []; bytes "de"] ++ [BRead 0; BSize 0]) binit) =
  repeat (Ok BUnit) 4 ++ repeat (Ok BUnit) 12 ++ [Ok (BBytes (bytes "abbcde")); Ok (BNum 6)] /\
  snd (brun [BNewFrom SNull 3; BNew; BRead 1; BRead 0] binit) =
  [Throw (ArgumentNull "content"); Ok BUnit; Ok (BBytes []); UB].
Proof. vm_compute. auto. Qed.

(** No leak: when all buffers are freed and all objects destroyed, no block is live. *)
Theorem C17_no_leak : forall cs, forallb (fun c => negb (copies c)) cs = true ->
  ~ In UB (snd (brun cs binit)) ->
  let st := fst (brun cs binit) in
  (forall o x, nth_error (b_objs st) o = Some x -> x = None) ->
  (forall i b, nth_error (b_bufs st) i = Some b -> nth_error (b_mem st) b = Some None) ->
  forall b x, nth_error (b_mem st) b = Some x -> x = None.
Proof.
  intros cs Hc Hu st Ho Hb b [bs|] Hm; auto. exfalso.
  destruct (run_rel cs binit ainit rel_init Hc) as [_ R]. specialize (R Hu). fold st in R.
  destruct (rel_live _ _ R b bs Hm) as [(i & Hi)|(o & x & Hox & Hx)].
  - apply Hb in Hi. congruence.
  - apply Ho in Hox. subst x. discriminate.
Qed.
Print Assumptions C17_no_leak.

Example C17_example_leak :
  let cs := [BBuf (bytes "ab"); BNewFrom (SBuf 0 0) 2; BAppend 0 (SBuf 0 0) 1; BFree 0; BDestroy 0] in
  snd (brun cs binit) = repeat (Ok BUnit) 5 /\ b_mem (fst (brun cs binit)) = [None; None; None] /\
  b_objs (fst (brun cs binit)) = [None].
Proof. vm_compute. auto. Qed.

(** Implicit copies: from any state reached without them, copying an object that holds bytes
    and destroying both is undefined behaviour, and so is reading the original after the
    copy was appended to. *)
Theorem C17_implicit_copy_refuted : forall cs o r b, forallb (fun c => negb (copies c)) cs = true ->
  ~ In UB (snd (brun cs binit)) ->
  let st := fst (brun cs binit) in
  nth_error (b_objs st) o = Some (Some r) -> r_content r = Some b ->
  let o' := length (b_objs st) in
  snd (brun [BCopy o; BDestroy o; BDestroy o'] st) = [Ok BUnit; Ok BUnit; UB] /\
  snd (brun [BCopy o; BBuf []; BAppend o' (SBuf (length (b_bufs st)) 0) 0; BRead o] st) = [Ok BUnit; Ok BUnit; Ok BUnit; UB].
Proof.
  intros cs o r b Hc Hu st Ho Hb o'.
  destruct (run_rel cs binit ainit rel_init Hc) as [_ R]. specialize (R Hu). fold st in R.
  destruct (rel_o _ _ R o _ Ho) as (y & _ & Hr). destruct r as [c n]. simpl in Hb. subst c.
  destruct y; simpl in Hr; try contradiction. destruct Hr as [Hm ->].
  pose proof (nth_some_lt _ _ _ Ho) as Hlo. pose proof (nth_some_lt _ _ _ Hm) as Hlb.
  assert (Hn1 : nth_error (b_objs st ++ [Some (mkR (Some b) (length bs))]) o = Some (Some (mkR (Some b) (length bs))))
    by (rewrite nth_error_app1; auto).
  assert (Hn2 : nth_error (b_objs st ++ [Some (mkR (Some b) (length bs))]) o' = Some (Some (mkR (Some b) (length bs))))
    by apply nth_last.
  split.
  - cbn [brun bexec]. unfold with_obj. rewrite Ho. cbn [b_objs b_mem b_bufs]. rewrite Hn1. cbn [rb_destroy r_content].
    unfold release at 1. rewrite Hm. cbn [res_map b_objs b_mem b_bufs]. rewrite list_set_ne by (unfold o'; lia).
    rewrite Hn2. cbn [rb_destroy r_content]. unfold release. rewrite list_set_eq by auto. reflexivity.
  - cbn [brun bexec alloc]. unfold with_obj. rewrite Ho. cbn [b_objs b_mem b_bufs src_ptr]. rewrite Hn2.
    rewrite nth_last. cbn [res_bind rb_append r_content r_size]. unfold peek at 1. rewrite nth_error_app1 by auto. rewrite Hm.
    simpl Nat.add at 1. rewrite Nat.leb_refl. cbn [res_bind]. unfold peek at 1. rewrite nth_last. cbn [length Nat.add Nat.leb res_bind].
    unfold release, alloc. rewrite !nth_error_app1 by (rewrite ?app_length; simpl; lia). rewrite Hm. cbn [res_bind res_map fst snd b_objs b_mem b_bufs].
    rewrite list_set_ne by (unfold o'; lia). rewrite Hn1. unfold rb_read. cbn [r_content r_size]. unfold peek.
    rewrite list_set_eq by (rewrite !app_length; simpl; lia). reflexivity.
Qed.
Print Assumptions C17_implicit_copy_refuted.

Example C17_example_copy :
  let st := fst (brun [BBuf (bytes "ab"); BNewFrom (SBuf 0 0) 2] binit) in
  nth_error (b_objs st) 0 = Some (Some (mkR (Some 1) 2)) /\
  snd (brun [BCopy 0; BDestroy 0; BDestroy 1] st) = [Ok BUnit; Ok BUnit; UB].
Proof. vm_compute. auto. Qed.

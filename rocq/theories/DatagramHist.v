(** Histories of one dictionary and of one list. *)
From Coq Require Import String Ascii List Arith ZArith NArith Bool Lia Sorting.
From Verif Require Import Prelude OMap DatagramModel DatagramSpec DatagramHeap DatagramProofs DatagramEq
  DatagramStmt DatagramRefine DatagramRefine2.
Import ListNotations.
Open Scope list_scope.

(** ** Dictionary histories on variable 0; [rest] are the other variables *)

Inductive dop : Type :=
| DPut (k : string) (v : data)        (* d[k] = value; *)
| DPutFrom (k : string) (w : nat)     (* d[k] = w; where w is variable S w *)
| DDel (k : string).                  (* d.Remove(k); *)

Definition dict_stmt (o : dop) : stmt :=
  match o with
  | DPut k v => SOp 0 [SKey k] (OSet v)
  | DPutFrom k w => SAssign 0 [SKey k] (S w)
  | DDel k => SOp 0 [] (ORemoveKey k)
  end.

Definition dop_key (o : dop) : string := match o with DPut k _ | DPutFrom k _ | DDel k => k end.

(** What the operation leaves at its key. *)
Definition dop_effect (rest : list dg) (o : dop) : option dg :=
  match o with
  | DPut _ v => Some (Val v)
  | DPutFrom _ w => nth_error rest w
  | DDel _ => None
  end.

(** The last operation on a key. *)
Fixpoint last_on (k : string) (ops : list dop) : option dop :=
  match ops with
  | [] => None
  | o :: ops' =>
    match last_on k ops' with
    | Some o' => Some o'
    | None => if String.eqb k (dop_key o) then Some o else None
    end
  end.

(** Contents expected at a key after [ops], starting from [init]. *)
Definition expected (init : list (string * dg)) (rest : list dg) (ops : list dop) (k : string) : option dg :=
  match last_on k ops with
  | Some o => dop_effect rest o
  | None => olookup k init
  end.

(** Result of an operation performed after [pre]. *)
Definition dop_result (init : list (string * dg)) (rest : list dg) (pre : list dop) (o : dop) : res rv :=
  match o with
  | DPut _ _ | DPutFrom _ _ => Ok RUnit
  | DDel k => match expected init rest pre k with Some _ => Ok RUnit | None => Throw (KeyNotFound k) end
  end.

Definition dop_ok (rest : list dg) (o : dop) : Prop :=
  match o with DPutFrom _ w => w < length rest | _ => True end.

Lemma last_on_snoc k ops o :
  last_on k (ops ++ [o]) = if String.eqb k (dop_key o) then Some o else last_on k ops.
Proof.
  induction ops as [|a ops IH]; simpl; auto.
  rewrite IH. destruct (String.eqb k (dop_key o)); auto.
Qed.

Definition dict_step (rest : list dg) (kvs : list (string * dg)) (o : dop) : list (string * dg) :=
  match o with
  | DPut k v => oinsert k (Val v) kvs
  | DPutFrom k w => match nth_error rest w with Some t => oinsert k t kvs | None => kvs end
  | DDel k => oremove k kvs
  end.

Lemma oremove_absent {V} k (m : omap V) : olookup k m = None -> oremove k m = m.
Proof.
  induction m as [|[k' v] m IH]; simpl; auto.
  destruct (String.eqb k k'); [discriminate|]. intros H. now rewrite IH.
Qed.

Lemma dict_spec_stmt rest kvs o :
  dop_ok rest o -> osorted kvs ->
  spec_stmt (dict_stmt o) (Dct kvs :: rest) =
  (Dct (dict_step rest kvs o) :: rest,
   match o with
   | DPut _ _ | DPutFrom _ _ => Ok RUnit
   | DDel k => match olookup k kvs with Some _ => Ok RUnit | None => Throw (KeyNotFound k) end
   end).
Proof.
  intros Ho Hs. destruct o as [k v|k w|k]; simpl.
  - reflexivity.
  - unfold spec_from. simpl in Ho. simpl nth_error.
    destruct (nth_error rest w) as [t|] eqn:E; [|apply nth_error_None in E; lia].
    unfold on_var. simpl. rewrite E. simpl.
    assert (L : match olookup k kvs with Some c => Some c | None => None end = olookup k kvs) by (destruct (olookup k kvs); auto).
    rewrite oinsert_insert by auto. reflexivity.
  - unfold on_var. simpl. destruct (olookup k kvs) eqn:E; auto. now rewrite (oremove_absent _ _ E).
Qed.

Lemma dict_step_sorted rest kvs o : osorted kvs -> osorted (dict_step rest kvs o).
Proof.
  intros H. destruct o; simpl; auto using osorted_insert, osorted_remove.
  destruct (nth_error rest w); auto using osorted_insert.
Qed.

Lemma dict_step_lookup rest kvs o k :
  dop_ok rest o -> osorted kvs ->
  olookup k (dict_step rest kvs o) = if String.eqb k (dop_key o) then dop_effect rest o else olookup k kvs.
Proof.
  intros Ho Hs. destruct o as [k' v|k' w|k']; simpl in *.
  - destruct (String.eqb_spec k k') as [E|E]; [subst; now rewrite olookup_insert_eq|rewrite olookup_insert_ne; auto].
  - destruct (nth_error rest w) as [t|] eqn:Ew; [|apply nth_error_None in Ew; lia].
    destruct (String.eqb_spec k k') as [E|E]; [subst; now rewrite olookup_insert_eq|rewrite olookup_insert_ne; auto].
  - destruct (String.eqb_spec k k') as [E|E]; [subst; now rewrite olookup_remove_eq|rewrite olookup_remove_ne; auto].
Qed.

Lemma dict_run init rest : osorted init -> forall post pre kvs,
  Forall (dop_ok rest) post -> osorted kvs -> (forall k, olookup k kvs = expected init rest pre k) ->
  exists kvs' rs, spec_run (map dict_stmt post) (Dct kvs :: rest) = (Dct kvs' :: rest, rs) /\
    osorted kvs' /\ (forall k, olookup k kvs' = expected init rest (pre ++ post) k) /\
    forall p o q, post = p ++ o :: q -> nth_error rs (length p) = Some (dop_result init rest (pre ++ p) o).
Proof.
  intros Hi. induction post as [|o post IH]; intros pre kvs Hok Hs He.
  - exists kvs, []. rewrite app_nil_r. repeat split; auto. intros p o q E. destruct p; discriminate.
  - inversion Hok as [|? ? Ho Hok']; subst.
    destruct (IH (pre ++ [o]) (dict_step rest kvs o)) as (kvs' & rs & E & S' & L' & R'); auto.
    + now apply dict_step_sorted.
    + intros k. rewrite dict_step_lookup by auto. unfold expected. rewrite last_on_snoc.
      destruct (String.eqb k (dop_key o)); auto. apply He.
    + simpl map. cbn [spec_run]. rewrite dict_spec_stmt by auto. rewrite E.
      eexists _, _. split; [reflexivity|]. rewrite <- app_assoc in *. simpl in *. repeat split; auto.
      intros p o' q Ep. destruct p as [|o1 p]; simpl in *.
      * injection Ep as <- <-. rewrite app_nil_r. f_equal. unfold dop_result. destruct o; auto.
        now rewrite He.
      * injection Ep as <- Ep. rewrite (R' p o' q Ep). now rewrite <- app_assoc.
Qed.

(** ** List histories on variable 0 *)

Inductive lop : Type :=
| LAdd (v : option data)              (* d.Add(new node); *)
| LAddFrom (w : nat)                  (* d.Add(copy of variable S w); *)
| LPut (i : nat) (v : data)           (* d[i] = value; *)
| LDel (i : nat).                     (* d.Remove(i); *)

Definition list_stmt (o : lop) : stmt :=
  match o with
  | LAdd v => SOp 0 [] (OAddNew v)
  | LAddFrom w => SAddCopy 0 [] (S w)
  | LPut i v => SOp 0 [SIdx i] (OSet v)
  | LDel i => SOp 0 [] (ORemoveIdx i)
  end.

(** The same on a sequence. *)
Definition seq_step (rest : list dg) (ts : list dg) (o : lop) : list dg * res rv :=
  match o with
  | LAdd v => (ts ++ [match v with Some x => Val x | None => Emp end], Ok RUnit)
  | LAddFrom w => (match nth_error rest w with Some t => ts ++ [t] | None => ts end, Ok RUnit)
  | LPut i v =>
    if i <? length ts then (firstn i ts ++ Val v :: skipn (S i) ts, Ok RUnit)
    else (ts, Throw (IndexOutOfBounds i))
  | LDel i =>
    if i <? length ts then (firstn i ts ++ skipn (S i) ts, Ok RUnit)
    else (ts, Throw (IndexOutOfBounds i))
  end.

Fixpoint seq_run (rest : list dg) (ts : list dg) (ops : list lop) : list dg * list (res rv) :=
  match ops with
  | [] => (ts, [])
  | o :: ops' =>
    let (ts1, r) := seq_step rest ts o in
    let (ts2, rs) := seq_run rest ts1 ops' in
    (ts2, r :: rs)
  end.

Definition lop_ok (rest : list dg) (o : lop) : Prop :=
  match o with LAddFrom w => w < length rest | _ => True end.

Lemma list_set_firstn {A} i (x : A) l : i < length l -> list_set i x l = firstn i l ++ x :: skipn (S i) l.
Proof.
  revert i; induction l as [|a l IH]; intros [|i] H; simpl in *; try lia; auto. rewrite IH by lia. reflexivity.
Qed.

Lemma list_spec_stmt rest ts o :
  lop_ok rest o ->
  spec_stmt (list_stmt o) (Lst ts :: rest) =
  (Lst (fst (seq_step rest ts o)) :: rest, snd (seq_step rest ts o)).
Proof.
  intros Ho. destruct o as [v|w|i v|i]; simpl.
  - unfold on_var. simpl. now destruct v.
  - unfold spec_from. simpl in Ho. simpl nth_error.
    destruct (nth_error rest w) as [t|] eqn:E; [|apply nth_error_None in E; lia].
    unfold on_var. simpl. rewrite E. reflexivity.
  - unfold on_var. simpl. destruct (Nat.ltb_spec i (length ts)) as [H|H].
    + destruct (nth_error ts i) eqn:E; [|apply nth_error_None in E; lia]. simpl.
      now rewrite list_set_firstn.
    + destruct (nth_error ts i) eqn:E; [apply nth_lt in E; lia|]. reflexivity.
  - unfold on_var. simpl. destruct (Nat.ltb_spec i (length ts)) as [H|H].
    + destruct (nth_error ts i) eqn:E; [|apply nth_error_None in E; lia]. reflexivity.
    + destruct (nth_error ts i) eqn:E; [apply nth_lt in E; lia|]. reflexivity.
Qed.

Lemma list_run rest ops : forall ts, Forall (lop_ok rest) ops ->
  spec_run (map list_stmt ops) (Lst ts :: rest) =
  (Lst (fst (seq_run rest ts ops)) :: rest, snd (seq_run rest ts ops)).
Proof.
  induction ops as [|o ops IH]; intros ts Hok; auto.
  inversion Hok; subst. simpl map. cbn [spec_run seq_run]. rewrite list_spec_stmt by auto.
  destruct (seq_step rest ts o) as [ts1 r]. cbn [fst snd]. rewrite IH by auto.
  destruct (seq_run rest ts1 ops). reflexivity.
Qed.

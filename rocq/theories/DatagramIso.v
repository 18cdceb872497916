(** Isolation of copies: two parties working on one heap. *)
From Coq Require Import String Ascii List Arith ZArith NArith Bool Lia Sorting.
From Verif Require Import Prelude OMap DatagramModel DatagramSpec DatagramHeap DatagramProofs DatagramInv.
Import ListNotations.
Open Scope list_scope.

(** What can be observed from a set of handles: the nodes reachable from them. *)
Inductive reach (h : heap) (env : list loc) : loc -> Prop :=
| reach_env l : In l env -> reach h env l
| reach_kid l n c : reach h env l -> nth_error h l = Some n -> In c (kids n) -> reach h env c.

(** Two parties, each with its own handles. [ISide b c]: party [b] executes a
    command on its own handles. [ICopyFrom b s]: party [b] copy-constructs a
    datagram from handle [s] of the other party. [IAssignFrom b d s]: party [b]
    assigns the other party's [s] to its own [d]. *)
Inductive icmd : Type :=
| ISide (b : bool) (c : cmd)
| ICopyFrom (b : bool) (s : nat)
| IAssignFrom (b : bool) (d s : nat).

Definition side (c : icmd) : bool :=
  match c with ISide b _ => b | ICopyFrom b _ => b | IAssignFrom b _ _ => b end.

Definition istate : Type := heap * (list loc * list loc).

(** One command of the party owning [me]. *)
Definition iexec1 (fuel : nat) (c : icmd) (h : heap) (me you : list loc) : cstate * res rv :=
  match c with
  | ISide _ c => exec fuel c (h, me)
  | ICopyFrom _ s =>
    match nth_error you s with
    | Some l => with_new me (dg_copy_ctor fuel l) h
    | None => ((h, me), Ok RBadHandle)
    end
  | IAssignFrom _ d s =>
    with_handle me d h (fun ld =>
      match nth_error you s with
      | Some l => with_res me unit_rv (dg_assign fuel ld l) h
      | None => ((h, me), Ok RBadHandle)
      end)
  end.

Definition iexec (fuel : nat) (c : icmd) (st : istate) : istate * res rv :=
  let '(h, (ea, eb)) := st in
  if side c then
    let '((h', ea'), r) := iexec1 fuel c h ea eb in ((h', (ea', eb)), r)
  else
    let '((h', eb'), r) := iexec1 fuel c h eb ea in ((h', (ea, eb')), r).

Fixpoint irun (fuel : nat) (cs : list icmd) (st : istate) : option istate :=
  match cs with
  | [] => Some st
  | c :: cs' =>
    let (st', r) := iexec fuel c st in
    match r with
    | Ok _ | Throw _ => irun fuel cs' st'
    | UB | NoFuel => None
    end
  end.

(** Handles of the party that did not act. *)
Definition other_env (c : icmd) (st : istate) : list loc :=
  if side c then snd (snd st) else fst (snd st).

(** ** Well-formed heaps *)

Definition scoped (h : heap) (env : list loc) : Prop :=
  (forall l n, nth_error h l = Some n -> shape n /\ forall c, In c (kids n) -> c < length h) /\
  Forall (fun l => l < length h) env.

Definition all_locs (x : loc) : Prop := True.

Lemma scoped_inv h env : scoped h env <-> inv 0 all_locs h /\ good_env all_locs h env.
Proof.
  split.
  - intros [A B]. split.
    + split; [lia|]. intros l n Hn. destruct (A l n Hn) as [C D]. split; [auto|]. intros c Hc.
      split; [auto|intros _; exact I].
    + eapply Forall_impl; [|exact B]. intros l Hl. split; [auto|exact I].
  - intros [[_ A] B]. split.
    + intros l n Hn. destruct (A l n Hn) as [C D]. split; auto. intros c Hc. now apply D.
    + eapply Forall_impl; [|exact B]. now intros l [Hl _].
Qed.

Lemma run_scoped fuel cs h env h' env' :
  scoped h env -> run fuel cs (h, env) = Some (h', env') -> scoped h' env'.
Proof.
  intros Hs Hr. apply scoped_inv in Hs. destruct Hs as [A B].
  destruct (run_ok 0 all_locs (fun _ _ => I) fuel cs h env h' env' A B Hr) as (C & _ & D & _).
  apply scoped_inv. auto.
Qed.

Lemma scoped_nil : scoped [] [].
Proof. split; [intros [|l] n H; discriminate|constructor]. Qed.

Lemma reach_lt h env x : scoped h env -> reach h env x -> x < length h.
Proof.
  intros [A B] H. induction H as [l Hl|l n c H IH Hn Hc].
  - rewrite Forall_forall in B. auto.
  - destruct (A l n Hn) as [_ D]. auto.
Qed.

Lemma reach_closed h env (P : loc -> Prop) :
  Forall P env -> (forall l n c, P l -> nth_error h l = Some n -> In c (kids n) -> P c) ->
  forall x, reach h env x -> P x.
Proof.
  intros He Hk x H. induction H; eauto. rewrite Forall_forall in He. auto.
Qed.

Lemma reach_frame h h' env :
  (forall x, reach h env x -> nth_error h' x = nth_error h x) ->
  forall x, reach h' env x <-> reach h env x.
Proof.
  intros Hf x. split; intros H; induction H.
  - now apply reach_env.
  - eapply reach_kid; eauto. rewrite <- Hf; auto.
  - now apply reach_env.
  - eapply reach_kid; eauto. rewrite Hf; auto.
Qed.

(** One step of a party: its side is whatever it can reach, plus new nodes. *)
Lemma iexec1_confined fuel c h me you h' me' r :
  scoped h me -> scoped h you ->
  iexec1 fuel c h me you = ((h', me'), r) ->
  scoped h' me' /\
  length h <= length h' /\
  (forall x, x < length h -> ~ reach h me x -> nth_error h' x = nth_error h x) /\
  (forall x, reach h' me' x -> reach h me x \/ length h <= x).
Proof.
  intros Sm Sy E.
  set (P := fun x => reach h me x \/ length h <= x).
  assert (Pn : forall x, length h <= x -> P x) by (intros; right; auto).
  assert (I0 : inv (length h) P h).
  { split; [lia|]. intros l n Hn. destruct Sm as [A _]. destruct (A l n Hn) as [B C]. split; auto.
    intros x Hx. split; auto. intros [Hl|Hl]; [left; eapply reach_kid; eauto|].
    apply nth_lt in Hn. lia. }
  assert (G0 : good_env P h me).
  { apply Forall_forall. intros l Hl. split.
    - destruct Sm as [_ B]. rewrite Forall_forall in B. auto.
    - left. now apply reach_env. }
  assert (K : cok (length h) P h me ((h', me'), r)).
  { rewrite <- E. destruct c as [b c|b s|b d s]; simpl.
    - now apply exec_ok.
    - destruct (nth_error you s) as [l|] eqn:Es; [|now apply cok_same].
      apply with_new_ok; auto. now apply tri_copy_ctor.
    - apply with_handle_ok; auto. intros ld _ Hld.
      destruct (nth_error you s) as [l|] eqn:Es; [|now apply cok_same].
      eapply with_res_ok; eauto. now apply tri_dg_assign. }
  destruct K as ([_ I1] & [L1 R1] & G1 & _).
  split.
  { split.
    - intros l n Hn. destruct (I1 l n Hn) as [B C]. split; auto. intros x Hx. now apply C.
    - eapply Forall_impl; [|exact G1]. now intros l [Hl _]. }
  split; auto. split.
  - intros x Hx Hnr. apply R1. intros [Hr|Hr]; [auto|lia].
  - apply reach_closed.
    + eapply Forall_impl; [|exact G1]. now intros l [_ Hl].
    + intros l n x Hl Hn Hx. destruct (I1 l n Hn) as [_ C]. destruct (C x Hx) as [_ HP]. exact (HP Hl).
Qed.

Definition separate (st : istate) : Prop :=
  let '(h, (ea, eb)) := st in
  scoped h ea /\ scoped h eb /\ forall x, reach h ea x -> reach h eb x -> False.

Lemma iexec_separate fuel c st st' r :
  separate st -> iexec fuel c st = (st', r) ->
  separate st' /\ other_env c st' = other_env c st /\
  forall x, reach (fst st) (other_env c st) x -> nth_error (fst st') x = nth_error (fst st) x.
Proof.
  destruct st as [h [ea eb]]. intros (Sa & Sb & D) E. unfold iexec in E. unfold other_env.
  assert (step : forall me you h' me' r,
            scoped h me -> scoped h you -> (forall x, reach h me x -> reach h you x -> False) ->
            iexec1 fuel c h me you = ((h', me'), r) ->
            scoped h' me' /\ scoped h' you /\ (forall x, reach h' me' x -> reach h' you x -> False) /\
            (forall x, reach h you x -> nth_error h' x = nth_error h x)).
  { intros me you h' me' r0 Sm Sy Dj E1.
    destruct (iexec1_confined _ _ _ _ _ _ _ _ Sm Sy E1) as (S1 & L1 & F1 & R1).
    assert (Fy : forall x, reach h you x -> nth_error h' x = nth_error h x).
    { intros x Hx. apply F1; [eapply reach_lt; eauto|]. intros Hm. eauto. }
    split; auto. split; [|split; auto].
    - split; [apply S1|]. destruct Sy as [_ B]. eapply Forall_impl; [|exact B]. simpl. intros; lia.
    - intros x Hx Hy. apply (reach_frame h h' you Fy) in Hy. apply R1 in Hx. destruct Hx as [Hx|Hx]; [eauto|].
      apply (reach_lt _ _ _ Sy) in Hy. lia. }
  destruct (side c).
  - destruct (iexec1 fuel c h ea eb) as [[h' ea'] r'] eqn:E1. injection E as <- <-.
    destruct (step ea eb h' ea' r' Sa Sb D E1) as (A1 & A2 & A3 & A4). simpl. auto.
  - destruct (iexec1 fuel c h eb ea) as [[h' eb'] r'] eqn:E1. injection E as <- <-.
    assert (D' : forall x, reach h eb x -> reach h ea x -> False) by eauto.
    destruct (step eb ea h' eb' r' Sb Sa D' E1) as (A1 & A2 & A3 & A4). simpl. eauto 10.
Qed.

Lemma irun_separate fuel cs : forall st st', separate st -> irun fuel cs st = Some st' -> separate st'.
Proof.
  induction cs as [|c cs IH]; intros st st' Hs Hr.
  - simpl in Hr. now injection Hr as <-.
  - cbn [irun] in Hr. destruct (iexec fuel c st) as [st1 r] eqn:E.
    destruct (iexec_separate _ _ _ _ _ Hs E) as (S1 & _). destruct r; eauto; discriminate.
Qed.

(** After a copy has been made, the copy is separate from every older handle. *)
Lemma copy_separate fuel cs h env s h' env' :
  run fuel cs ([], []) = Some (h, env) ->
  exec fuel (CCopy s) (h, env) = ((h', env'), Ok RHandle) ->
  exists c, env' = env ++ [c] /\ separate (h', (env, [c])).
Proof.
  intros Hr Hc. pose proof (run_scoped _ _ _ _ _ _ scoped_nil Hr) as Hs.
  simpl in Hc. unfold with_handle in Hc. destruct (nth_error env s) as [l|] eqn:El; [|discriminate].
  set (P := fun x => length h <= x).
  assert (I0 : inv (length h) P h).
  { split; [lia|]. intros x n Hn. destruct Hs as [A _]. destruct (A x n Hn) as [B C]. split; auto.
    intros y Hy. split; auto. intros Hx. apply nth_lt in Hn. unfold P in Hx. lia. }
  assert (T : tri (length h) P (dg_copy_ctor fuel l) h (fun c h' => good P h' c)) by (apply tri_copy_ctor; auto).
  specialize (T I0). unfold with_new in Hc. destruct (dg_copy_ctor fuel l h) as [h1 r]; destruct r as [c| | |]; try discriminate.
  injection Hc as <- <-. destruct T as ([_ I1] & [L1 R1] & Hg). exists c. split; auto.
  assert (Sc : forall l n, nth_error h1 l = Some n -> shape n /\ forall c, In c (kids n) -> c < length h1).
  { intros x n Hn. destruct (I1 x n Hn) as [B C]. split; auto. intros y Hy. now apply C. }
  split; [|split].
  - split; auto. destruct Hs as [_ B]. eapply Forall_impl; [|exact B]. simpl. intros. lia.
  - split; auto. constructor; auto. apply Hg.
  - intros x Hx Hy.
    assert (F : forall x, reach h env x -> nth_error h1 x = nth_error h x).
    { intros y Hyr. apply R1. unfold P. apply (reach_lt _ _ _ Hs) in Hyr. lia. }
    apply (reach_frame h h1 env F) in Hx. apply (reach_lt _ _ _ Hs) in Hx.
    assert (P x); [|unfold P in *; lia].
    revert x Hy Hx. intros x Hy _. revert x Hy. apply reach_closed.
    + constructor; auto. apply Hg.
    + intros z n y Hz Hn Hyk. destruct (I1 z n Hn) as [_ C]. destruct (C y Hyk) as [_ HP]. exact (HP Hz).
Qed.

(** The nodes of a datagram's tree are reachable from it. *)
Lemma own_reach_both h :
  (forall l t F, own h l t F -> forall env, reach h env l -> forall x, In x F -> reach h env x) /\
  (forall ps ts F, owns h ps ts F -> forall env, (forall c, In (Some c) ps -> reach h env c) ->
     forall x, In x F -> reach h env x).
Proof.
  apply own_owns_ind.
  - intros l H env Hl x [<-|[]]. auto.
  - intros l d H env Hl x [<-|[]]. auto.
  - intros l ps ts F H HO IH env Hl x [<-|Hx]; auto. apply (IH env); auto.
    intros c Hc. eapply reach_kid; eauto. apply in_kids. simpl. auto.
  - intros l m kvs F H Hs Hk HO IH env Hl x [<-|Hx]; auto. apply (IH env); auto.
    intros c Hc. eapply reach_kid; eauto. apply in_kids. simpl. left.
    apply in_map_iff in Hc. destruct Hc as ([k p] & E & Hc). simpl in E. subst. eauto.
  - intros env _ x [].
  - intros p ps t ts F1 F2 H1 IH1 H2 IH2 env Hps x Hx. apply in_app_iff in Hx. destruct Hx as [Hx|Hx].
    + apply (IH1 env); auto. apply Hps. left. auto.
    + apply (IH2 env); auto. intros c Hc. apply Hps. right. auto.
Qed.

Lemma denotes_frame h h' env l t :
  (forall x, reach h env x -> nth_error h' x = nth_error h x) -> In l env ->
  denotes h l t -> denotes h' l t.
Proof.
  intros Hf Hl (F & HO). exists F. eapply own_frame; eauto. intros x Hx. apply Hf.
  eapply (proj1 (own_reach_both h)); eauto. now apply reach_env.
Qed.

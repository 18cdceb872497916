(** Shared vocabulary: outcomes of C++ calls, list and string helpers. *)
From Coq Require Import String Ascii List Arith Lia ZArith NArith Bool.
Import ListNotations.
Open Scope list_scope.

(** The exception classes of include/lamppost/exceptions/*.h that the modelled
    code throws, with the payload a caller can read, plus std::bad_function_call
    (calling an empty std::function). *)
Inductive exc : Type :=
| InvalidOperation                (* exceptions/InvalidOperationException.h *)
| KeyNotFound (key : string)      (* exceptions/KeyNotFoundException.h *)
| IndexOutOfBounds (index : nat)  (* exceptions/IndexOutOfBoundsException.h *)
| ArgumentNull (param : string)   (* exceptions/ArgumentNullException.h *)
| DuplicateKey (key : string)     (* exceptions/DuplicateKeyException.h *)
| OperationFailed (what : string) (* exceptions/OperationFailedException.h *)
| BadFunctionCall                 (* std::bad_function_call *)
| OtherException (what : string). (* anything else a client callback throws *)

(** Outcome of a C++ call. [UB]: undefined behaviour was reached (null or
    dangling dereference). [NoFuel]: the recursion bound of the model was
    exhausted; a call that is [NoFuel] for every bound does not return. *)
Inductive res (A : Type) : Type :=
| Ok (a : A)
| Throw (e : exc)
| UB
| NoFuel.
Arguments Ok {A} a.
Arguments Throw {A} e.
Arguments UB {A}.
Arguments NoFuel {A}.

Definition res_map {A B} (f : A -> B) (r : res A) : res B :=
  match r with
  | Ok a => Ok (f a)
  | Throw e => Throw e
  | UB => UB
  | NoFuel => NoFuel
  end.

Definition res_bind {A B} (r : res A) (f : A -> res B) : res B :=
  match r with
  | Ok a => f a
  | Throw e => Throw e
  | UB => UB
  | NoFuel => NoFuel
  end.

(** Replace the [i]-th element; no effect when [i] is out of range. *)
Fixpoint list_set {A} (i : nat) (x : A) (l : list A) : list A :=
  match l, i with
  | [], _ => []
  | _ :: l', 0 => x :: l'
  | y :: l', S i' => y :: list_set i' x l'
  end.

(** Remove the [i]-th element; no effect when [i] is out of range. *)
Fixpoint list_del {A} (i : nat) (l : list A) : list A :=
  match l, i with
  | [], _ => []
  | _ :: l', 0 => l'
  | y :: l', S i' => y :: list_del i' l'
  end.

Section ListFacts.
  Context {A : Type}.
  Implicit Types l : list A.

  Lemma list_set_length i x l : length (list_set i x l) = length l.
  Proof. revert i; induction l as [|y l IH]; intros [|i]; simpl; auto. Qed.

  Lemma list_set_eq i x l : i < length l -> nth_error (list_set i x l) i = Some x.
  Proof.
    revert i; induction l as [|y l IH]; intros [|i] H; simpl in *; try lia; auto.
    apply IH; lia.
  Qed.

  Lemma list_set_ne i j x l : i <> j -> nth_error (list_set i x l) j = nth_error l j.
  Proof.
    revert i j; induction l as [|y l IH]; intros [|i] [|j] H; simpl; auto; try congruence.
  Qed.

  Lemma list_set_nth i j x l :
    nth_error (list_set i x l) j =
    if Nat.eqb i j then match nth_error l j with Some _ => Some x | None => None end
    else nth_error l j.
  Proof.
    destruct (Nat.eqb_spec i j) as [->|Hne].
    - destruct (nth_error l j) eqn:E.
      + apply list_set_eq. apply nth_error_Some. congruence.
      + apply nth_error_None. rewrite list_set_length. now apply nth_error_None.
    - now apply list_set_ne.
  Qed.

  Lemma list_set_app_l i x l l' : i < length l -> list_set i x (l ++ l') = list_set i x l ++ l'.
  Proof.
    revert i; induction l as [|y l IH]; intros [|i] H; simpl in *; try lia; auto.
    f_equal; apply IH; lia.
  Qed.

  Lemma list_set_same i x l : nth_error l i = Some x -> list_set i x l = l.
  Proof.
    revert i; induction l as [|y l IH]; intros [|i] H; simpl in *; try discriminate.
    - congruence.
    - f_equal; auto.
  Qed.

  Lemma list_set_set i x y l : list_set i x (list_set i y l) = list_set i x l.
  Proof. revert i; induction l as [|z l IH]; intros [|i]; simpl; auto. f_equal; auto. Qed.

  Lemma list_set_decomp i x l y :
    nth_error l i = Some y -> exists l1 l2, l = l1 ++ y :: l2 /\ length l1 = i /\ list_set i x l = l1 ++ x :: l2.
  Proof.
    revert i; induction l as [|z l IH]; intros [|i] H; simpl in *; try discriminate.
    - injection H as ->. exists [], l. auto.
    - destruct (IH _ H) as (l1 & l2 & -> & Hl & E).
      exists (z :: l1), l2. simpl. rewrite E. auto.
  Qed.

  Lemma list_del_decomp i l y :
    nth_error l i = Some y -> exists l1 l2, l = l1 ++ y :: l2 /\ length l1 = i /\ list_del i l = l1 ++ l2.
  Proof.
    revert i; induction l as [|z l IH]; intros [|i] H; simpl in *; try discriminate.
    - injection H as ->. exists [], l. auto.
    - destruct (IH _ H) as (l1 & l2 & -> & Hl & E).
      exists (z :: l1), l2. simpl. rewrite E. auto.
  Qed.

  Lemma list_del_oob i l : length l <= i -> list_del i l = l.
  Proof. revert i; induction l as [|z l IH]; intros [|i] H; simpl in *; auto; try lia. f_equal; apply IH; lia. Qed.

  Lemma in_list_set i x l y : In y (list_set i x l) -> y = x \/ In y l.
  Proof.
    revert i; induction l as [|z l IH]; intros [|i] H; simpl in *; auto.
    - destruct H; auto.
    - destruct H as [->|H]; auto. destruct (IH _ H); auto.
  Qed.

  Lemma in_list_del i l y : In y (list_del i l) -> In y l.
  Proof.
    revert i; induction l as [|z l IH]; intros [|i] H; simpl in *; auto.
    destruct H as [->|H]; eauto.
  Qed.

  Lemma nth_error_app_new l x : nth_error (l ++ [x]) (length l) = Some x.
  Proof. rewrite nth_error_app2, Nat.sub_diag by lia. reflexivity. Qed.

  Lemma nth_error_snoc l x i :
    nth_error (l ++ [x]) i = if Nat.eqb i (length l) then Some x else nth_error l i.
  Proof.
    destruct (Nat.eqb_spec i (length l)) as [->|Hne].
    - apply nth_error_app_new.
    - destruct (Nat.lt_ge_cases i (length l)).
      + now rewrite nth_error_app1.
      + transitivity (@None A); [|symmetry]; apply nth_error_None; rewrite ?app_length; simpl; lia.
  Qed.
End ListFacts.

Lemma map_list_set {A B} (f : A -> B) i x l : map f (list_set i x l) = list_set i (f x) (map f l).
Proof. revert i; induction l as [|y l IH]; intros [|i]; simpl; auto. f_equal; auto. Qed.

Lemma map_list_del {A B} (f : A -> B) i l : map f (list_del i l) = list_del i (map f l).
Proof. revert i; induction l as [|y l IH]; intros [|i]; simpl; auto. f_equal; auto. Qed.

Lemma Forall2_len {A B} (R : A -> B -> Prop) l l' : Forall2 R l l' -> length l = length l'.
Proof. induction 1; simpl; auto. Qed.

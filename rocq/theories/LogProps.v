(** C56, C57: log lines, and the stop signal's handler, which logs. *)
From Coq Require Import String Ascii List Arith ZArith Bool Lia.
From Verif Require Import Prelude LogModel.
Import ListNotations.
Open Scope string_scope.
Open Scope list_scope.

(** ** Vocabulary *)

(** A complete line: "[prefix] ", two spaces for each positive indentation level, the message, a line break. *)
Definition line (c : call) : string :=
  ("[" ++ c_prefix c ++ "] " ++ String.concat "" (repeat "  " (Z.to_nat (c_indent c))) ++ c_message c ++ String (ascii_of_nat 10) "")%string.
Definition text (cs : list call) : string := String.concat "" (map line cs).
(** The calls of thread [t] in a sequence of calls by several threads, the handler's apart. *)
Definition calls_of (t : nat) (evs : list (nat * bool * call)) : list call :=
  map snd (filter (fun e => Nat.eqb (fst (fst e)) t && negb (snd (fst e))) evs).
(** What [th] has left to do: the call it waits with, and those it has not made. *)
Definition left (th : thread) : list call := match th_act th with Wants c => [c] | _ => [] end ++ th_todo th.
(** [s] comes about when threads making the calls [ps] run; the lock was taken for the calls [evs]. *)
Definition comes (ps : list (list call)) (s : lstate) (evs : list (nat * bool * call)) : Prop := exists ls, lexec ls (log_init ps) = Some (s, evs).

(** The thread's own activity has begun to write a line and not ended. *)
Definition mid_line (th : thread) : Prop := exists r, th_act th = Writes r.
(** The handler runs on it. *)
Definition handling (th : thread) : Prop := th_sig th <> None.
(** Some thread was interrupted in the middle of a line. *)
Definition caught (s : lstate) : Prop := exists t th, nth_error (lg_threads s) t = Some th /\ mid_line th /\ handling th.

(** ** Strings *)

Lemma sapp_assoc (a b c : string) : ((a ++ b) ++ c)%string = (a ++ (b ++ c))%string.
Proof. induction a; simpl; congruence. Qed.
Lemma sapp_nil (a : string) : (a ++ "")%string = a.
Proof. induction a; simpl; congruence. Qed.
Lemma concat_nil_cons x l : String.concat "" (x :: l) = (x ++ String.concat "" l)%string.
Proof. destruct l; simpl; [now rewrite sapp_nil|reflexivity]. Qed.
Lemma concat_nil_app l1 l2 : String.concat "" (l1 ++ l2) = (String.concat "" l1 ++ String.concat "" l2)%string.
Proof. induction l1 as [|x l1 IH]; [reflexivity|]. rewrite <- app_comm_cons, !concat_nil_cons, IH. now rewrite sapp_assoc. Qed.

Lemma indent_ok n : forall acc, indent_loop n acc = (acc ++ String.concat "" (repeat "  " n))%string.
Proof.
  induction n as [|n IH]; intros acc; cbn [indent_loop repeat]; [now rewrite sapp_nil|].
  rewrite IH, concat_nil_cons. now rewrite sapp_assoc.
Qed.
Lemma line_ok c : (line_of c ++ String newline "")%string = line c.
Proof. unfold line_of, line, newline. rewrite indent_ok. now rewrite !sapp_assoc. Qed.
Lemma text_app a b : text (a ++ b) = (text a ++ text b)%string.
Proof. unfold text. now rewrite map_app, concat_nil_app. Qed.
Lemma text_one c : text [c] = line c.
Proof. reflexivity. Qed.

(** ** What always holds *)

Lemma lexec_app ls1 : forall ls2 s s1 e1 s2 e2, lexec ls1 s = Some (s1, e1) -> lexec ls2 s1 = Some (s2, e2) -> lexec (ls1 ++ ls2) s = Some (s2, e1 ++ e2).
Proof.
  induction ls1 as [|l ls1 IH]; simpl; intros ls2 s s1 e1 s2 e2 H1 H2; [injection H1 as <- <-; auto|].
  destruct (lstep l s) as [[s' e']|]; try discriminate. destruct (lexec ls1 s') as [[s1' e1']|] eqn:E; [|discriminate].
  injection H1 as <- <-. rewrite (IH _ _ _ _ _ _ E H2). now rewrite app_assoc.
Qed.

Lemma comes_ind ps (P : lstate -> list (nat * bool * call) -> Prop) : P (log_init ps) [] ->
  (forall s tr l s' e, P s tr -> lstep l s = Some (s', e) -> P s' (tr ++ e)) ->
  forall s tr, comes ps s tr -> P s tr.
Proof.
  intros H0 Hs.
  assert (forall ls s tr, P s tr -> forall s' e, lexec ls s = Some (s', e) -> P s' (tr ++ e)) as G.
  { induction ls as [|l ls IH]; simpl; intros s tr Ps s' e E; [injection E as <- <-; now rewrite app_nil_r|].
    destruct (lstep l s) as [[s1 e1]|] eqn:St; try discriminate. destruct (lexec ls s1) as [[s2 e2]|] eqn:E2; [|discriminate].
    injection E as <- <-. rewrite app_assoc. apply (IH s1 (tr ++ e1)); auto. eapply Hs; eauto. }
  intros s tr (ls & E). apply (G ls (log_init ps) [] H0 _ _ E).
Qed.

(** [th] holds the lock and has [r] left to write. *)
Definition holds (th : thread) (r : string) : Prop := th_act th = Writes r \/ th_sig th = Some (Writes r).

Record log_inv (ps : list (list call)) (s : lstate) (evs : list (nat * bool * call)) : Prop := mkLogInv {
  gi_len : length (lg_threads s) = length ps;
  gi_holds : forall t th r, nth_error (lg_threads s) t = Some th -> holds th r -> lg_owner s = Some t;
  gi_one : forall t th r r', nth_error (lg_threads s) t = Some th -> th_act th = Writes r -> th_sig th = Some (Writes r') -> False;
  gi_rest : forall t th, nth_error (lg_threads s) t = Some th -> th_sig th <> Some Rest;
  gi_free : lg_owner s = None -> lg_out s = text (map snd evs);
  gi_owned : forall t, lg_owner s = Some t -> exists th r w b c evs', nth_error (lg_threads s) t = Some th /\ holds th r /\
    evs = evs' ++ [(t, b, c)] /\ lg_out s = (text (map snd evs') ++ w)%string /\ line c = (w ++ r)%string;
  gi_order : forall t th p, nth_error (lg_threads s) t = Some th -> nth_error ps t = Some p -> p = calls_of t evs ++ left th
}.

Lemma init_nth ps t th : nth_error (lg_threads (log_init ps)) t = Some th -> exists p, nth_error ps t = Some p /\ th = mkThread p Rest None.
Proof. cbn. intros H. rewrite nth_error_map in H. destruct (nth_error ps t) as [p|]; [|discriminate]. injection H as <-. eauto. Qed.

Lemma calls_app t a b : calls_of t (a ++ b) = calls_of t a ++ calls_of t b.
Proof. unfold calls_of. now rewrite filter_app, map_app. Qed.

Lemma log_ok ps s evs : comes ps s evs -> log_inv ps s evs.
Proof.
  revert s evs. apply comes_ind.
  - constructor; cbn [lg_owner lg_out log_init]; try discriminate; auto.
    + cbn. now rewrite map_length.
    + intros t th r H [A|A]; apply init_nth in H as (p & _ & ->); discriminate A.
    + intros t th r r' H A; apply init_nth in H as (p & _ & ->); discriminate A.
    + intros t th H A; apply init_nth in H as (p & _ & ->); discriminate A.
    + intros t th p H Hp; apply init_nth in H as (p' & Hp' & ->). rewrite Hp in Hp'. injection Hp' as <-. reflexivity.
  - intros s evs l s' e [Len Ho One Re Fr Ow Or] St.
    (* one thread changes *)
    assert (exists t th th', nth_error (lg_threads s) t = Some th /\ lg_threads s' = list_set t th' (lg_threads s) /\
      ((* no change of the lock *)
       (lg_owner s' = lg_owner s /\ e = [] /\ left th' = left th /\
         ((lg_out s' = lg_out s /\ (forall r, holds th' r <-> holds th r) /\ (forall r, th_act th' = Writes r -> th_act th = Writes r) /\
            th_sig th' <> Some Rest /\ (forall r, th_sig th' = Some (Writes r) -> th_sig th = Some (Writes r))) \/
          (exists c r, holds th (String c r) /\ holds th' r /\ lg_out s' = (lg_out s ++ String c "")%string /\ th_sig th' <> Some Rest /\
             (forall r0 r1, th_act th' = Writes r0 -> th_sig th' = Some (Writes r1) -> exists r2 r3, th_act th = Writes r2 /\ th_sig th = Some (Writes r3))))) \/
       (* the lock is taken *)
       (lg_owner s = None /\ lg_owner s' = Some t /\ lg_out s' = lg_out s /\ th_sig th' <> Some Rest /\
         exists c, e = [(t, in_handler th, c)] /\ holds th' (line c) /\
           left th = (if in_handler th then [] else [c]) ++ left th' /\
           (forall r r', th_act th' = Writes r -> th_sig th' = Some (Writes r') -> th_act th = Writes r)) \/
       (* the lock is given back *)
       (holds th "" /\ lg_owner s' = None /\ lg_out s' = lg_out s /\ e = [] /\ left th' = left th /\ (forall r, ~ holds th' r) /\ th_sig th' <> Some Rest))) as (t & th & th' & N & ET & K).
    { destruct l as [t|t|t|t|t]; unfold lstep in St; cbv beta iota zeta in St; destruct (nth_error (lg_threads s) t) as [th|] eqn:N; try discriminate; exists t, th.
      - destruct th as [[|c cs] [| |] [|]]; try discriminate. injection St as <- <-. eexists; split; [eauto|split; [reflexivity|]].
        left. repeat split; auto; try (left; repeat split; auto; cbn; try discriminate); intros [A|A]; discriminate A.
      - destruct (running th) as [|c|r] eqn:Ru; try discriminate. destruct (lg_owner s) eqn:O; try discriminate. rewrite line_ok in St. injection St as <- <-.
        eexists; split; [eauto|split; [reflexivity|]]. right; left. cbn [lg_owner lg_out]. repeat split; auto.
        + unfold put. destruct (th_sig th); cbn; discriminate.
        + exists c. unfold running, put, in_handler, left, holds in *. destruct th as [td a [h|]]; cbn in *; subst; repeat split; auto. discriminate.
      - destruct (running th) as [|c|[|c r]] eqn:Ru; try discriminate. injection St as <- <-.
        eexists; split; [eauto|split; [reflexivity|]]. left. cbn [lg_owner lg_out]. split; [reflexivity|split; [reflexivity|]].
        unfold running, put, left, holds in *. destruct th as [td a [h|]]; cbn in *; subst; split; auto; right; exists c, r; repeat split; auto; try discriminate.
        intros r0 r1 A _. eauto.
      - destruct (running th) as [|c|[|c r]] eqn:Ru; try discriminate. injection St as <- <-.
        eexists; split; [eauto|split; [reflexivity|]]. right; right. cbn [lg_owner lg_out].
        unfold running, put, left, holds in *. destruct th as [td a [h|]]; cbn in *; subst; repeat split; auto; try discriminate; intros r [A|A]; try discriminate.
        eapply One; [exact N| |]; cbn; eauto.
      - destruct th as [cs a [|]]; try discriminate. injection St as <- <-. eexists; split; [eauto|split; [reflexivity|]].
        left. repeat split; auto. left; repeat split; auto; cbn; try discriminate; intros [A|A]; cbn in A; try discriminate A; left; auto. }
    assert (t < length (lg_threads s)) as Lt by (apply nth_error_Some; congruence).
    assert (forall t1 th1, nth_error (lg_threads s') t1 = Some th1 -> (t1 = t /\ th1 = th') \/ (t1 <> t /\ nth_error (lg_threads s) t1 = Some th1)) as Nth.
    { intros t1 th1. rewrite ET. destruct (Nat.eq_dec t1 t) as [->|D]; [rewrite list_set_eq by auto|rewrite list_set_ne by auto]; intros A; [injection A as <-|]; auto. }
    assert (nth_error (lg_threads s') t = Some th') as Nt by (rewrite ET; now apply list_set_eq).
    destruct K as [(O & -> & Lf & K)|[(O & O' & Out & Sg & c & -> & Hc & Lf & Nw)|(Ht & O' & Out & -> & Lf & Nh & Sg)]].
    + (* no change of the lock *)
      rewrite app_nil_r. constructor.
      * rewrite ET, list_set_length. auto.
      * intros t1 th1 r A B. rewrite O. apply Nth in A as [(-> & ->)|(D & A)]; [|eapply Ho; eauto].
        destruct K as [(Out & Eh & _)|(c & r' & H1 & H2 & _)]; [apply Eh in B; eapply Ho; eauto|eapply Ho; eauto].
      * intros t1 th1 r r' A B C. apply Nth in A as [(-> & ->)|(D & A)]; [|eapply One; eauto].
        destruct K as [(Out & Eh & Ea & _ & Es)|(c & r0 & H1 & H2 & _ & _ & Ex)]; [eapply One; [exact N|apply Ea; eauto|apply Es; eauto]|].
        destruct (Ex _ _ B C) as (r2 & r3 & X1 & X2). eapply One; [exact N|eauto|eauto].
      * intros t1 th1 A. apply Nth in A as [(-> & ->)|(D & A)]; [|eapply Re; eauto]. destruct K as [(_ & _ & _ & K & _)|(c & r0 & _ & _ & _ & K & _)]; auto.
      * rewrite O. intros X. destruct K as [(Out & _)|(c & r0 & H1 & _)]; [rewrite Out; auto|]. rewrite (Ho _ _ _ N H1) in X. discriminate.
      * intros t1. rewrite O. intros X. destruct (Ow _ X) as (th1 & r & w & b & c1 & evs' & A & B & -> & C & D).
        destruct (Nat.eq_dec t1 t) as [->|Dn].
        -- rewrite N in A. injection A as <-. destruct K as [(Out & Eh & _)|(c & r0 & H1 & H2 & Out & _)].
           ++ exists th', r, w, b, c1, evs'. repeat split; auto; [apply Eh; auto|congruence].
           ++ assert (r = String c r0) as ->.
              { destruct B as [B|B], H1 as [H1|H1]; try congruence; exfalso; eapply One; eauto. }
              exists th', r0, (w ++ String c "")%string, b, c1, evs'. repeat split; auto; [rewrite Out, C; now rewrite sapp_assoc|]. rewrite D. now rewrite sapp_assoc.
        -- exists th1, r, w, b, c1, evs'. repeat split; auto; [rewrite ET, list_set_ne by auto; auto|].
           destruct K as [(Out & _)|(c & r0 & H1 & _)]; [congruence|]. rewrite (Ho _ _ _ N H1) in X. congruence.
      * intros t1 th1 p A Hp. apply Nth in A as [(-> & ->)|(D & A)]; [rewrite Lf|]; eapply Or; eauto.
    + (* taken *)
      constructor.
      * rewrite ET, list_set_length. auto.
      * intros t1 th1 r A B. rewrite O'. apply Nth in A as [(-> & ->)|(D & A)]; auto. rewrite (Ho _ _ _ A B) in O. discriminate.
      * intros t1 th1 r r' A B C. apply Nth in A as [(-> & ->)|(D & A)]; [|eapply One; eauto].
        specialize (Nw _ _ B C). rewrite (Ho _ _ r N (or_introl Nw)) in O. discriminate.
      * intros t1 th1 A. apply Nth in A as [(-> & ->)|(D & A)]; auto. eapply Re; eauto.
      * congruence.
      * intros t1. rewrite O'. intros X. injection X as <-. exists th', (line c), "", (in_handler th), c, evs. repeat split; auto. rewrite Out, sapp_nil. auto.
      * intros t1 th1 p A Hp. rewrite calls_app. apply Nth in A as [(-> & ->)|(D & A)].
        -- rewrite (Or _ _ _ N Hp), Lf, <- app_assoc. f_equal. unfold calls_of. cbn. rewrite Nat.eqb_refl. destruct (in_handler th); reflexivity.
        -- rewrite (Or _ _ _ A Hp). unfold calls_of at 3. cbn. apply Nat.eqb_neq in D. rewrite Nat.eqb_sym in D. rewrite D. cbn. now rewrite app_nil_r.
    + (* given back *)
      rewrite app_nil_r. pose proof (Ho _ _ _ N Ht) as O. constructor.
      * rewrite ET, list_set_length. auto.
      * intros t1 th1 r A B. apply Nth in A as [(-> & ->)|(D & A)]; [destruct (Nh _ B)|]. rewrite (Ho _ _ _ A B) in O. congruence.
      * intros t1 th1 r r' A B C. apply Nth in A as [(-> & ->)|(D & A)]; [|eapply One; eauto]. apply (Nh r). now left.
      * intros t1 th1 A. apply Nth in A as [(-> & ->)|(D & A)]; auto. eapply Re; eauto.
      * intros _. destruct (Ow _ O) as (th1 & r & w & b & c1 & evs' & A & B & -> & C & D). rewrite N in A. injection A as <-.
        assert (r = "") as -> by (destruct B as [B|B], Ht as [H1|H1]; try congruence; exfalso; eapply One; eauto).
        rewrite Out, C, map_app, text_app. cbn [map snd]. rewrite text_one, D, sapp_nil. reflexivity.
      * congruence.
      * intros t1 th1 p A Hp. apply Nth in A as [(-> & ->)|(D & A)]; [rewrite Lf|]; eapply Or; eauto.
Qed.

(** ** C56 *)

(** At any time the output is a sequence of complete lines, but for a part of the last, which the holder of
    the lock goes on with. *)
Theorem C56_lines ps s evs : comes ps s evs -> exists rest, text (map snd evs) = (lg_out s ++ rest)%string /\
  (lg_owner s = None -> rest = "") /\
  (rest <> "" -> exists evs' e w, evs = evs' ++ [e] /\ lg_out s = (text (map snd evs') ++ w)%string /\ line (snd e) = (w ++ rest)%string).
Proof.
  intros C. apply log_ok in C as [_ _ _ _ Fr Ow _]. destruct (lg_owner s) as [t|] eqn:O.
  - destruct (Ow _ eq_refl) as (th & r & w & b & c & evs' & _ & _ & -> & A & B). exists r. rewrite map_app, text_app. cbn [map snd].
    rewrite text_one, A, B, sapp_assoc. repeat split; [discriminate|]. intros _. exists evs', (t, b, c), w. auto.
  - exists "". rewrite sapp_nil. repeat split; [symmetry; auto|]. congruence.
Qed.
Print Assumptions C56_lines.

(** Each thread's lines appear in the order of its calls, and none is lost or doubled. *)
Theorem C56_order ps s evs : comes ps s evs ->
  forall t th p, nth_error (lg_threads s) t = Some th -> nth_error ps t = Some p -> p = calls_of t evs ++ left th.
Proof. intros C. now apply log_ok in C as [_ _ _ _ _ _ Or]. Qed.
Print Assumptions C56_order.

(** When no thread is at it any more, the output is the lines of all calls, in some order, each thread's in its own. *)
Theorem C56_all_written ps s evs : comes ps s evs -> (forall t th, nth_error (lg_threads s) t = Some th -> th = mkThread [] Rest None) ->
  lg_out s = text (map snd evs) /\ (forall t p, nth_error ps t = Some p -> calls_of t evs = p).
Proof.
  intros C Q. pose proof (log_ok _ _ _ C) as [Len _ _ _ Fr Ow Or]. split.
  - destruct (lg_owner s) as [t|] eqn:O; [|auto]. destruct (Ow _ eq_refl) as (th & r & _ & _ & _ & _ & A & B & _). rewrite (Q _ _ A) in B. destruct B; discriminate.
  - intros t p Hp. destruct (nth_error (lg_threads s) t) as [th|] eqn:N.
    + rewrite (Or _ _ _ N Hp), (Q _ _ N). cbn. now rewrite app_nil_r.
    + apply nth_error_None in N. assert (t < length ps) by (apply nth_error_Some; congruence). lia.
Qed.
Print Assumptions C56_all_written.

(** Two threads; the second waits in the middle of the first one's line. *)
Definition hello : call := mkCall "A" "x" 1.
Definition other : call := mkCall "B" "y" (-3).
Definition chars (t n : nat) : list llabel := repeat (LChar t) n.
Example C56_case : exists s evs,
  lexec ([LCall 0; LCall 1; LLock 0] ++ chars 0 8 ++ [LUnlock 0; LLock 1] ++ chars 1 6 ++ [LUnlock 1]) (log_init [[hello]; [other]]) = Some (s, evs) /\
  lg_out s = ("[A]   x" ++ String newline ("[B] y" ++ String newline ""))%string /\ lg_threads s = [mkThread [] Rest None; mkThread [] Rest None] /\
  lexec [LCall 0; LCall 1; LLock 0; LLock 1] (log_init [[hello]; [other]]) = None.
Proof. eexists _, _. vm_compute. repeat split; reflexivity. Qed.

(** ** C57 *)

Lemma sig_call ps s evs : comes ps s evs -> forall t th c, nth_error (lg_threads s) t = Some th -> th_sig th = Some (Wants c) -> c = signal_call.
Proof.
  revert s evs. apply (comes_ind ps (fun s _ => forall t th c, nth_error (lg_threads s) t = Some th -> th_sig th = Some (Wants c) -> c = signal_call)).
  - intros t th c H A. apply init_nth in H as (p & _ & ->). discriminate A.
  - intros s evs l s' e IH St t1 th1 c1.
    assert (forall t th th' out o, nth_error (lg_threads s) t = Some th -> s' = mkLog (list_set t th' (lg_threads s)) o out ->
      (forall c, th_sig th' = Some (Wants c) -> c = signal_call) -> nth_error (lg_threads s') t1 = Some th1 -> th_sig th1 = Some (Wants c1) -> c1 = signal_call) as G.
    { intros t th th' out o N -> H. cbn [lg_threads]. assert (t < length (lg_threads s)) by (apply nth_error_Some; congruence).
      destruct (Nat.eq_dec t1 t) as [->|D]; [rewrite list_set_eq by auto|rewrite list_set_ne by auto]; intros A; [injection A as <-; auto|]. eapply IH; eauto. }
    destruct l as [t|t|t|t|t]; unfold lstep in St; cbv beta iota zeta in St; destruct (nth_error (lg_threads s) t) as [th|] eqn:N; try discriminate.
    + destruct th as [[|c cs] [| |] [|]]; try discriminate. injection St as <- <-. eapply G; [exact N|reflexivity|]. discriminate.
    + destruct (running th) as [|c|r] eqn:Ru; try discriminate. destruct (lg_owner s) eqn:O; try discriminate. injection St as <- <-.
      eapply G; [exact N|reflexivity|]. intros c0. unfold put. destruct (th_sig th); discriminate.
    + destruct (running th) as [|c|[|c r]] eqn:Ru; try discriminate. injection St as <- <-.
      eapply G; [exact N|reflexivity|]. intros c0. unfold put. destruct (th_sig th); discriminate.
    + destruct (running th) as [|c|[|c r]] eqn:Ru; try discriminate. injection St as <- <-.
      eapply G; [exact N|reflexivity|]. intros c0. unfold put. destruct (th_sig th); discriminate.
    + destruct th as [cs a [|]]; try discriminate. injection St as <- <-. eapply G; [exact N|reflexivity|]. cbn. intros c A. now injection A.
Qed.

(** A thread interrupted in the middle of a line: its handler waits for good, and with it everybody who logs. *)
Theorem C57_blocks ps s evs t th : comes ps s evs -> nth_error (lg_threads s) t = Some th -> mid_line th -> handling th ->
  forall ls s' e, lexec ls s = Some (s', e) ->
    e = [] /\ lg_out s' = lg_out s /\ exists th', nth_error (lg_threads s') t = Some th' /\ mid_line th' /\ th_sig th' = Some (Wants signal_call).
Proof.
  intros C N (r & M) H.
  assert (th_sig th = Some (Wants signal_call)) as Sg.
  { unfold handling in H. destruct (th_sig th) as [[|c|r']|] eqn:E; try congruence.
    - destruct (gi_rest _ _ _ (log_ok _ _ _ C) _ _ N E).
    - f_equal. f_equal. eapply sig_call; eauto.
    - destruct (gi_one _ _ _ (log_ok _ _ _ C) _ _ _ _ N M E). }
  clear H. assert (lg_owner s = Some t) as O by (eapply gi_holds; [eapply log_ok; eauto|exact N|left; eauto]).
  assert (forall t1 th1, nth_error (lg_threads s) t1 = Some th1 -> t1 <> t -> forall r, running th1 <> Writes r) as Oth.
  { intros t1 th1 N1 D r1 R1. assert (lg_owner s = Some t1); [|congruence]. eapply gi_holds; [eapply log_ok; eauto|exact N1|].
    unfold running in R1. unfold holds. destruct (th_sig th1) eqn:E1; [right|left]; [rewrite R1|rewrite R1]; reflexivity. }
  clear C. intros ls. revert s th N M Sg O Oth. induction ls as [|l ls IH]; cbn [lexec]; intros s th N M Sg O Oth s' e E.
  - injection E as <- <-. repeat split; auto. exists th. repeat split; auto. exists r; auto.
  - destruct (lstep l s) as [[s1 e1]|] eqn:St; [|discriminate]. destruct (lexec ls s1) as [[s2 e2]|] eqn:E2; [|discriminate]. injection E as <- <-.
    assert (t < length (lg_threads s)) as Lt by (apply nth_error_Some; congruence).
    assert (e1 = [] /\ lg_out s1 = lg_out s /\ lg_owner s1 = lg_owner s /\ exists t1 th1 th1', t1 <> t /\ nth_error (lg_threads s) t1 = Some th1 /\
      lg_threads s1 = list_set t1 th1' (lg_threads s) /\ forall r, running th1' <> Writes r) as (-> & Out & O1 & t1 & th1 & th1' & D & N1 & ET & R1).
    { destruct l as [t1|t1|t1|t1|t1]; unfold lstep in St; cbv beta iota zeta in St; destruct (nth_error (lg_threads s) t1) as [th1|] eqn:N1; try discriminate.
      - destruct th1 as [[|c cs] [| |] [|]] eqn:T1; try discriminate. injection St as <- <-. repeat split; auto. eexists t1, th1, _. subst th1. repeat split; eauto; [intros ->|discriminate].
        rewrite N in N1. injection N1 as ->. discriminate Sg.
      - rewrite O in St. destruct (running th1); discriminate.
      - destruct (Nat.eq_dec t1 t) as [->|D]; [|destruct (running th1) as [|c|r1] eqn:R; try discriminate; destruct (Oth _ _ N1 D _ R)].
        rewrite N in N1. injection N1 as <-. unfold running in St. rewrite Sg in St. discriminate.
      - destruct (Nat.eq_dec t1 t) as [->|D]; [|destruct (running th1) as [|c|r1] eqn:R; try discriminate; destruct (Oth _ _ N1 D _ R)].
        rewrite N in N1. injection N1 as <-. unfold running in St. rewrite Sg in St. discriminate.
      - destruct th1 as [cs a [|]] eqn:T1; try discriminate. injection St as <- <-. repeat split; auto. eexists t1, th1, _. subst th1. repeat split; eauto; [intros ->|discriminate].
        rewrite N in N1. injection N1 as ->. discriminate Sg. }
    assert (nth_error (lg_threads s1) t = Some th) as N' by (rewrite ET, list_set_ne by auto; auto).
    destruct (IH s1 th N' M Sg) with (s' := s2) (e := e2) as (-> & Out2 & X); auto.
    + congruence.
    + intros t2 th2 N2 D2. rewrite ET in N2. destruct (Nat.eq_dec t2 t1) as [->|D3]; [|rewrite list_set_ne in N2 by auto; eauto].
      rewrite list_set_eq in N2 by (apply nth_error_Some; congruence). injection N2 as <-. auto.
    + repeat split; auto. congruence.
Qed.
Print Assumptions C57_blocks.

Lemma running_put th r : running (put th (Writes r)) = Writes r.
Proof. unfold put, running. destruct (th_sig th); reflexivity. Qed.
Lemma put_put th r a : put (put th (Writes r)) a = put th a.
Proof. unfold put. destruct (th_sig th); reflexivity. Qed.

(** The holder gets to the end of its line. *)
Lemma drain t r : forall s th, nth_error (lg_threads s) t = Some th -> running th = Writes r ->
  lexec (chars t (String.length r) ++ [LUnlock t]) s = Some (mkLog (list_set t (put th Rest) (lg_threads s)) None (lg_out s ++ r)%string, []).
Proof.
  induction r as [|c r IH]; intros s th N R.
  - cbn [chars String.length repeat app lexec]. unfold lstep. cbv beta iota zeta. rewrite N, R, sapp_nil. reflexivity.
  - cbn [chars String.length repeat app lexec]. unfold lstep at 1. cbv beta iota zeta. rewrite N, R.
    assert (t < length (lg_threads s)) as Lt by (apply nth_error_Some; congruence).
    fold (chars t (String.length r)). erewrite IH; cbn [lg_threads lg_out]; [|apply list_set_eq; auto|apply running_put].
    rewrite list_set_set, put_put, sapp_assoc. reflexivity.
Qed.

(** A step other than the handler's start. *)
Definition no_signal (l : llabel) : Prop := match l with LSignal _ => False | _ => True end.

Lemma drain_no_signal t n : Forall no_signal (chars t n ++ [LUnlock t]).
Proof. apply Forall_app; split; [induction n; constructor; simpl; auto|repeat constructor]. Qed.

(** Anywhere else the handler can get to its end, without a further signal; and if it has not got the lock yet, with its line written. *)
Theorem C57_completes ps s evs t th : comes ps s evs -> nth_error (lg_threads s) t = Some th -> handling th -> ~ caught s ->
  exists ls s' e, lexec ls s = Some (s', e) /\ Forall no_signal ls /\ (exists th', nth_error (lg_threads s') t = Some th' /\ ~ handling th') /\
    lg_owner s' = None /\ (th_sig th = Some (Wants signal_call) -> e = [(t, true, signal_call)] /\ line signal_call = ("[LampPost] Received stop signal." ++ String (ascii_of_nat 10) "")%string).
Proof.
  intros C N H NC. pose proof (log_ok _ _ _ C) as [_ Ho One Re Fr Ow _].
  assert (t < length (lg_threads s)) as Lt by (apply nth_error_Some; congruence).
  (* once the lock is free *)
  assert (forall s1 th1, nth_error (lg_threads s1) t = Some th1 -> lg_owner s1 = None -> th_sig th1 = Some (Wants signal_call) ->
    exists ls s' e, lexec ls s1 = Some (s', e) /\ Forall no_signal ls /\ (exists th', nth_error (lg_threads s') t = Some th' /\ ~ handling th') /\ lg_owner s' = None /\ e = [(t, true, signal_call)]) as Free.
  { intros s1 th1 N1 O1 S1. assert (t < length (lg_threads s1)) as L1 by (apply nth_error_Some; congruence).
    eexists (LLock t :: chars t _ ++ [LUnlock t]), _, _. cbn [lexec]. unfold lstep at 1. cbv beta iota zeta. rewrite N1. unfold running at 1. rewrite S1, O1.
    erewrite (drain t); [|cbn [lg_threads]; apply list_set_eq; auto|apply running_put].
    split; [reflexivity|]. split; [repeat constructor|]. cbn [lg_threads lg_owner]. rewrite list_set_set. split; [|split; auto].
    - eexists. split; [apply list_set_eq; auto|]. unfold put, handling. rewrite S1. cbn. tauto.
    - unfold in_handler. rewrite S1. reflexivity. }
  destruct (lg_owner s) as [t'|] eqn:O.
  - destruct (Ow _ eq_refl) as (th' & r & _ & _ & _ & _ & N' & Hr & _).
    assert (running th' = Writes r) as Ru.
    { unfold running. destruct Hr as [A|A]; [|now rewrite A]. destruct (th_sig th') as [a|] eqn:E; auto. exfalso. apply NC. exists t', th'. repeat split; auto; [exists r; auto|unfold handling; congruence]. }
    pose proof (drain t' r s th' N' Ru) as Dr. destruct (Nat.eq_dec t' t) as [->|D].
    + rewrite N in N'. injection N' as <-. eexists _, _, _. split; [exact Dr|]. split; [apply drain_no_signal|]. cbn [lg_threads lg_owner]. split; [|split; auto].
      * eexists. split; [apply list_set_eq; auto|]. unfold put, handling in *. destruct (th_sig th); cbn; tauto.
      * intros S1. unfold running in Ru. rewrite S1 in Ru. discriminate.
    + assert (th_sig th = Some (Wants signal_call)) as S1.
      { unfold handling in H. destruct (th_sig th) as [[|c|r1]|] eqn:E; try congruence; try (destruct (Re _ _ N E); fail); try (now rewrite (sig_call _ _ _ C _ _ _ N E)).
        assert (Some t' = Some t); [|congruence]. eapply (Ho _ _ _ N). right. exact E. }
      destruct (Free (mkLog (list_set t' (put th' Rest) (lg_threads s)) None (lg_out s ++ r)%string) th) as (ls & s' & e & E1 & F1 & X & O2 & ->); auto.
      { cbn [lg_threads]. rewrite list_set_ne by auto. auto. }
      eexists (_ ++ ls), s', ([] ++ _). split; [eapply lexec_app; eauto|]. split; [apply Forall_app; split; auto; apply drain_no_signal|]. repeat split; auto.
  - assert (th_sig th = Some (Wants signal_call)) as S1.
    { unfold handling in H. destruct (th_sig th) as [[|c|r1]|] eqn:E; try congruence; try (destruct (Re _ _ N E); fail); try (now rewrite (sig_call _ _ _ C _ _ _ N E)).
      assert (None = Some t); [|congruence]. eapply (Ho _ _ _ N). right. exact E. }
    destruct (Free s th N O S1) as (ls & s' & e & A & B & X & Y & Z). exists ls, s', e. repeat split; auto.
Qed.
Print Assumptions C57_completes.

(** A thread gets caught only when the handler starts on it in the middle of its line. *)
Theorem C57_how ps s evs l s' e : comes ps s evs -> lstep l s = Some (s', e) -> ~ caught s -> caught s' ->
  exists t th, l = LSignal t /\ nth_error (lg_threads s) t = Some th /\ mid_line th.
Proof.
  intros C St NC (t1 & th1 & N1 & (r & M) & H).
  assert (forall t th th' out o, nth_error (lg_threads s) t = Some th -> s' = mkLog (list_set t th' (lg_threads s)) o out ->
    (mid_line th' -> handling th' -> mid_line th /\ handling th) -> False) as G.
  { intros t th th' out o N -> X. cbn [lg_threads] in N1. assert (t < length (lg_threads s)) by (apply nth_error_Some; congruence). apply NC.
    destruct (Nat.eq_dec t1 t) as [->|D]; [rewrite list_set_eq in N1 by auto|rewrite list_set_ne in N1 by auto].
    - injection N1 as <-. exists t, th. destruct X as (X1 & X2); auto. exists r; auto.
    - exists t1, th1. repeat split; auto. exists r; auto. }
  destruct l as [t|t|t|t|t]; unfold lstep in St; cbv beta iota zeta in St; destruct (nth_error (lg_threads s) t) as [th|] eqn:N; try discriminate.
  - destruct th as [[|c cs] [| |] [|]]; try discriminate. injection St as <- <-. exfalso. eapply G; [exact N|reflexivity|]. intros (r1 & M1). discriminate M1.
  - destruct (running th) as [|c|r1] eqn:Ru; try discriminate. destruct (lg_owner s) eqn:O; try discriminate. injection St as <- <-.
    exfalso. eapply G; [exact N|reflexivity|]. unfold put, mid_line, handling. destruct (th_sig th); cbn; [intros; split; [auto|discriminate]|congruence].
  - destruct (running th) as [|c|[|c r1]] eqn:Ru; try discriminate. injection St as <- <-.
    exfalso. eapply G; [exact N|reflexivity|]. unfold put, mid_line, handling. destruct (th_sig th); cbn; [intros; split; [auto|discriminate]|congruence].
  - destruct (running th) as [|c|[|c r1]] eqn:Ru; try discriminate. injection St as <- <-.
    exfalso. eapply G; [exact N|reflexivity|]. unfold put, mid_line, handling. destruct (th_sig th); cbn; [congruence|congruence].
  - exists t, th. split; [reflexivity|split; [exact N|]]. destruct th as [cs a [|]]; try discriminate. injection St as <- <-. cbn [lg_threads] in N1.
    assert (t < length (lg_threads s)) by (apply nth_error_Some; congruence).
    destruct (Nat.eq_dec t1 t) as [->|D]; [rewrite list_set_eq in N1 by auto|rewrite list_set_ne in N1 by auto].
    + injection N1 as <-. exists r. exact M.
    + exfalso. apply NC. exists t1, th1. repeat split; auto. exists r; auto.
Qed.
Print Assumptions C57_how.

(** So, exactly: the handler on [t] can end unless some thread is caught. *)
Theorem C57_exactly ps s evs t th : comes ps s evs -> nth_error (lg_threads s) t = Some th -> handling th ->
  (exists ls s' e th', lexec ls s = Some (s', e) /\ nth_error (lg_threads s') t = Some th' /\ ~ handling th') <-> ~ caught s.
Proof.
  intros C N H. split.
  - intros (ls & s' & e & th' & E & N' & F) (t1 & th1 & N1 & M1 & H1).
    destruct (C57_blocks _ _ _ _ _ C N1 M1 H1 _ _ _ E) as (-> & _ & th1' & N1' & M1' & S1').
    destruct (Nat.eq_dec t t1) as [->|D].
    { rewrite N' in N1'. injection N1' as ->. apply F. unfold handling. congruence. }
    (* the handler of [t] has to take the lock, which it cannot *)
    assert (forall ls s evs th, comes ps s evs -> nth_error (lg_threads s) t = Some th -> handling th -> lg_owner s = Some t1 -> (exists th1, nth_error (lg_threads s) t1 = Some th1 /\ mid_line th1 /\ handling th1) ->
      forall s' e th', lexec ls s = Some (s', e) -> nth_error (lg_threads s') t = Some th' -> handling th') as G.
    { clear - D. induction ls as [|l ls IH]; cbn [lexec]; intros s evs th C N H O (th1 & N1 & M1 & H1) s' e th' E N'.
      - injection E as <- <-. congruence.
      - destruct (lstep l s) as [[s1 e1]|] eqn:St; [|discriminate]. destruct (lexec ls s1) as [[s2 e2]|] eqn:E2; [|discriminate]. injection E as <- <-.
        assert (comes ps s1 (evs ++ e1)) as C1 by (destruct C as (ls0 & C); exists (ls0 ++ [l]); eapply lexec_app; eauto; cbn [lexec]; rewrite St, app_nil_r; reflexivity).
        assert (lexec [l] s = Some (s1, e1)) as El by (cbn [lexec]; rewrite St, app_nil_r; reflexivity).
        destruct (C57_blocks _ _ _ _ _ C N1 M1 H1 _ _ _ El) as (-> & _ & th1' & N1' & (r1 & M1') & S1').
        pose proof (log_ok _ _ _ C) as [_ Ho _ _ _ _ _].
        assert (exists thx, nth_error (lg_threads s1) t = Some thx /\ handling thx) as (thx & Nx & Hx).
        { assert (forall r, running th <> Writes r) as NR.
          { intros r R. assert (lg_owner s = Some t); [|congruence]. eapply Ho; eauto. unfold running in R. unfold handling in H. destruct (th_sig th) eqn:Eq; [|congruence]. right. rewrite R in Eq. exact Eq. }
          assert (t < length (lg_threads s)) as Lt by (apply nth_error_Some; congruence).
          destruct l as [t2|t2|t2|t2|t2]; unfold lstep in St; cbv beta iota zeta in St; destruct (nth_error (lg_threads s) t2) as [th2|] eqn:N2; try discriminate.
          - destruct th2 as [[|c cs] [| |] [|]]; try discriminate. injection St as <-. cbn [lg_threads]. destruct (Nat.eq_dec t2 t) as [->|D2]; [|rewrite list_set_ne by auto; eauto].
            rewrite N in N2. injection N2 as ->. destruct (H eq_refl).
          - rewrite O in St. destruct (running th2); discriminate.
          - destruct (running th2) as [|c|[|c r]] eqn:R2; try discriminate. injection St as <-. cbn [lg_threads]. destruct (Nat.eq_dec t2 t) as [->|D2]; [|rewrite list_set_ne by auto; eauto].
            rewrite N in N2. injection N2 as <-. destruct (NR _ R2).
          - destruct (running th2) as [|c|[|c r]] eqn:R2; try discriminate. injection St as <-. cbn [lg_threads]. destruct (Nat.eq_dec t2 t) as [->|D2]; [|rewrite list_set_ne by auto; eauto].
            rewrite N in N2. injection N2 as <-. destruct (NR _ R2).
          - destruct th2 as [cs a [|]]; try discriminate. injection St as <-. cbn [lg_threads]. destruct (Nat.eq_dec t2 t) as [->|D2]; [|rewrite list_set_ne by auto; eauto].
            rewrite N in N2. injection N2 as ->. destruct (H eq_refl). }
        eapply (IH s1 (evs ++ []) thx C1 Nx Hx); eauto.
        + eapply gi_holds; [eapply log_ok; eauto|exact N1'|]. left. eauto.
        + exists th1'. repeat split; auto; [exists r1; auto|unfold handling; congruence]. }
    apply F. eapply (G ls s evs th); eauto. destruct M1 as (r1 & M1). eapply gi_holds; [eapply log_ok; eauto|exact N1|]. left. eauto.
  - intros NC. destruct (C57_completes _ _ _ _ _ C N H NC) as (ls & s' & e & E & _ & (th' & N' & F) & _). eauto 10.
Qed.
Print Assumptions C57_exactly.

(** A signal in the middle of a line, and one just before the thread takes the lock. *)
Example C57_case :
  (exists s evs th, lexec [LCall 0; LLock 0; LChar 0; LSignal 0] (log_init [[hello]]) = Some (s, evs) /\ nth_error (lg_threads s) 0 = Some th /\ mid_line th /\ handling th) /\
  (exists s evs th, lexec [LCall 0; LSignal 0] (log_init [[hello]]) = Some (s, evs) /\ nth_error (lg_threads s) 0 = Some th /\ handling th /\ ~ caught s).
Proof.
  split; eexists _, _, _; (split; [vm_compute; reflexivity|]); (split; [reflexivity|]).
  - split; [eexists; reflexivity|discriminate].
  - split; [discriminate|]. intros ([|[|t]] & th & N & (r & M) & _); cbn in N; try discriminate N; injection N as <-; discriminate M.
Qed.

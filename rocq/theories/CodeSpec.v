(** Vocabulary for C79, in terms of what was done (the log of [cexec]). *)
From Coq Require Import List.
From Verif Require Import OwnModel CodeModel.
Import ListNotations.

(** Library [l] made the publisher or subscriber [x] on bus [b]. *)
Definition made (lg : list (clabel * ores)) (l b x : nat) : Prop :=
  In (By l (NewPub b), New x) lg \/ exists caps, In (By l (NewSub b caps), New x) lg.
(** It deleted [x] from bus [b]. *)
Definition deleted (lg : list (clabel * ores)) (l b x : nat) : Prop :=
  In (By l (DeletePub b x), Fine) lg \/ In (By l (DeleteSub b x), Fine) lg.

(** What a call's callback captures. *)
Definition caps_of (o : oop) : list nat :=
  match o with NewSub _ caps | NewProv _ caps | Request _ caps | SetCallback _ caps => caps | _ => [] end.
Definition captures_nothing (lb : clabel) : Prop := match lb with By _ o => caps_of o = [] | _ => True end.

(** * Vocabulary for what happens to nodes over a history of calls (C90, C91). *)
From Coq Require Import List NArith Arith Bool.
From Verif Require Import Base DomModel DomSpec ApiSpec.
Import ListNotations.
Local Open Scope nat_scope.

(** [d'] comes from [d] by the valid calls [os], in this order. *)
Inductive history : dom -> list op -> dom -> Prop :=
| hist_nil d : history d [] d
| hist_cons d bl o d1 os d' : valid d bl o -> run bl o d = Ok d1 -> history d1 os d' ->
    history d (o :: os) d'.

(** [l] is got from [m] by leaving entries out. *)
Inductive subseq {A} : list A -> list A -> Prop :=
| ss_nil m : subseq [] m
| ss_take x l m : subseq l m -> subseq (x :: l) (x :: m)
| ss_skip x l m : subseq l m -> subseq l (x :: m).

(** The entries of [l] that existed when there were [n] nodes. *)
Definition old (n : nat) (l : list nat) : list nat := filter (fun c => c <? n) l.

(** The calls that put something in front of the children of a node. *)
Definition is_prepend (o : op) : Prop :=
  match o with PrependDoc _ _ | PrependText _ _ | PrependHtml _ _ => True | _ => False end.

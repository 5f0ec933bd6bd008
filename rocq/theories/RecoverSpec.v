(** * Going on after an abandoned call.  Definitions only. *)
From Coq Require Import List NArith Arith Bool.
From Verif Require Import Base TrieModel DomModel ParserModel EditModel ReadModel DomSpec ApiSpec.
Import ListNotations.
Local Open Scope nat_scope.

(** The calls that make no node and register no string, on one of the first [m] nodes. *)
Definition plain (m : nat) (o : op) : Prop :=
  match o with
  | Remove n | RemoveChildren n | RemoveBool n _ | RemoveProp n _ | AddText n _ _ => n < m
  | _ => False
  end.
(** The calls of [l] one after the other. *)
Fixpoint run_calls (l : list op) (d : dom) : outcome dom :=
  match l with
  | [] => Ok d
  | o :: l' => let* d := run [] o d in run_calls l' d
  end.
(** All arguments are fine when their turn comes. *)
Fixpoint valid_calls (l : list op) (d : dom) : Prop :=
  match l with
  | [] => True
  | o :: l' => valid d [] o /\ forall e, run [] o d = Ok e -> valid_calls l' e
  end.

(** All nodes of [d], their texts, names and attributes, and all child lists are
    as they were. *)
Definition unseen (d d' : dom) : Prop :=
  (forall i, node_id d i -> same_content d d' i) /\
  (forall q m, node_id d q -> (children d' q m <-> children d q m)).

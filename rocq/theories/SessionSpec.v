(** * Pointers into the tables of a document, over an edit. *)
From Coq Require Import List Arith.
From Verif Require Import Base DomModel TraceModel TraceEditModel.
Import ListNotations.
Local Open Scope nat_scope.

(** Elements a step appends to table [tab], and the length of the table at the start. *)
Definition appends (tab : nat) (e : xev) : nat :=
  match e, tab with
  | XB (ENode _ _), 1 | XB (EFirst _), 2 | XB (EPchild _), 3 | XB (ENext _), 4 | XB (EBprop _), 5 | XB (EProp _), 6 => 1
  | _, _ => 0
  end.
Definition table_len (tab : nat) (d : dom) : nat :=
  match tab with
  | 1 => length (nodes d) | 2 => length (firsts d) | 3 => length (pchilds d)
  | 4 => length (nexts d) | 5 => length (bprops d) | 6 => length (props d) | _ => 0
  end.

(** Nothing was appended to table [tab] between the moment a pointer into it was taken,
    when it had [g] elements, and now, after the steps [pre]. *)
Definition current (d : dom) (pre : list xev) (tab g : nat) : Prop :=
  1 <= tab <= 6 /\ g = table_len tab d + list_sum (map (appends tab) pre).

(** Every access through a pointer, wherever it occurs in the record. *)
Definition pointers_current (d : dom) (l : list xev) : Prop :=
  forall pre e post, l = pre ++ e :: post ->
  match e with
  | XStore tab k g x => current d pre tab g /\ k < g
  | XLoad tab k g => current d pre tab g
  | _ => True
  end.

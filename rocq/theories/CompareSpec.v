(** * What it means that two documents are equal.  Definitions only. *)
From Coq Require Import List NArith Arith Bool.
From Verif Require Import Base TrieModel DomModel ParserModel DomSpec ApiSpec MsiModel.
Import ListNotations.
Local Open Scope nat_scope.

(** Is the tag of element [n] registered as paired? *)
Definition paired (d : dom) (n : nat) : option bool :=
  match nth_error (nodes d) n with
  | Some (mkNode _ TDocument (PTag t)) =>
      match nth_error (tag_reg d) t with
      | Some r => Some (t_paired r)
      | None => None
      end
  | _ => None
  end.

(** The same non-empty strings, regardless of order and repetition, and equally
    many empty strings. *)
Definition empties (l : list bytes) : nat :=
  length (filter (fun s => match s with [] => true | _ => false end) l).
Definition same_strings (a b : list bytes) : Prop :=
  (forall s, s <> [] -> (In s a <-> In s b)) /\ empties a = empties b.

(** Node [n] of [d1] and node [m] of [d2] look alike (children aside). *)
Definition alike (d1 : dom) (n : nat) (d2 : dom) (m : nat) : Prop :=
  kind d1 n = kind d2 m /\ text_of d1 n = text_of d2 m /\ tag_name d1 n = tag_name d2 m /\
  paired d1 n = paired d2 m /\
  (kind d1 n = Some TDocument ->
     same_strings (bool_attrs d1 n) (bool_attrs d2 m) /\
     same_strings (map fst (attrs d1 n)) (map fst (attrs d2 m)) /\
     same_strings (map snd (attrs d1 n)) (map snd (attrs d2 m))).

(** ... and so do their subtrees, child by child. *)
Inductive similar (d1 d2 : dom) : nat -> nat -> Prop :=
| sim_node n m l1 l2 : alike d1 n d2 m -> children d1 n l1 -> children d2 m l2 ->
    similars d1 d2 l1 l2 -> similar d1 d2 n m
with similars (d1 d2 : dom) : list nat -> list nat -> Prop :=
| sims_nil : similars d1 d2 [] []
| sims_cons n m l1 l2 : similar d1 d2 n m -> similars d1 d2 l1 l2 ->
    similars d1 d2 (n :: l1) (m :: l2).

(** At most 64 attributes of each sort on every node. *)
Definition few_attributes (d : dom) : Prop :=
  forall n, node_id d n -> length (bool_attrs d n) <= 64 /\ length (attrs d n) <= 64.

(** * Specification for C82 and C83.  Definitions only. *)
From Coq Require Import List NArith Arith Bool.
From Verif Require Import Base ParserModel GrammarSpec ReaderSpec.
Import ListNotations.
Local Open Scope nat_scope.

(** A verdict with trees and tags in front of it. *)
Definition behind (ts : list tree) (us : list (bytes * bool)) (v : verdict) : verdict :=
  match v with Trees ts' us' => Trees (ts ++ ts') (us ++ us') | _ => v end.
(** The items end with a text. *)
Definition ends_open (l : list item) : Prop :=
  exists l' w more after, l = l' ++ [Run w more after] \/ l = l' ++ [Odd w more after].
(** Bytes behind them do not continue that text: none, or a '<' that is not the
    start of a comment. *)
Definition joinable (l : list item) (r : bytes) : Prop :=
  ends_open l -> r = [] \/ exists r', r = cLT :: r' /\ ~ prefix [cBANG; cDASH; cDASH] r'.
(** The innermost open element and its content, after the unclosed elements [os]. *)
Fixpoint inner (cur : list tree) (st : list open_elem) (os : list opened) : list tree * list open_elem :=
  match os with
  | [] => (cur, st)
  | o :: os' => inner (forest (o_body o))
                  ((o_name o, bools_of (o_ats o), props_of (o_ats o), cur) :: st) os'
  end.
(** The items read last. *)
Fixpoint last_items (l : list item) (os : list opened) : list item :=
  match os with [] => l | o :: os' => last_items (o_body o) os' end.
(** Two unclosed elements that mean the same, however they are spelt. *)
Definition same_opened (o o' : opened) : Prop :=
  o_name o = o_name o' /\ bools_of (o_ats o) = bools_of (o_ats o') /\ props_of (o_ats o) = props_of (o_ats o') /\ forest (o_body o) = forest (o_body o') /\ opens (o_body o) = opens (o_body o').

(** [s] is a contiguous part of [t]. *)
Definition slice (s t : bytes) : Prop := exists a b, t = a ++ s ++ b.
(** Words separated by single spaces, each a contiguous part of [t] without blanks
    and '<'; the first one may be empty. *)
Definition text_from (t s : bytes) : Prop :=
  exists ws, s = join ws /\ (forall w, In w (tl ws) -> w <> []) /\
    forall w, In w ws -> slice w t /\ all text_char w.
(** Everything in the tree comes from the source. *)
Inductive tree_from (t : bytes) : tree -> Prop :=
| from_text s : text_from t s -> tree_from t (Txt s)
| from_elem n bs ps ks : slice n t -> (forall b, In b bs -> slice b t) ->
    (forall k v, In (k, v) ps -> slice k t /\ slice v t) ->
    Forall (tree_from t) ks -> tree_from t (Elem n bs ps ks).

Definition sum (l : list nat) : nat := fold_right Nat.add 0 l.
(** Number of nodes and attributes of a tree. *)
Fixpoint entries (x : tree) : nat :=
  match x with
  | Txt _ => 1
  | Elem _ bs ps ks => 1 + length bs + length ps + sum (map entries ks)
  end.
(** Bytes of its names, keys, values and texts. *)
Fixpoint volume (x : tree) : nat :=
  match x with
  | Txt s => length s
  | Elem n bs ps ks => length n + sum (map (@length N) bs) +
      sum (map (fun kv => length (fst kv) + length (snd kv)) ps) + sum (map volume ks)
  end.

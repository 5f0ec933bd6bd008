(** * A document and its duplicate: what to expect. *)
From Coq Require Import List NArith ZArith Arith Bool.
From Verif Require Import Base DomModel EditModel ApiSpec MemModel ArenaSpec SessionSpec.
Import ListNotations.
Local Open Scope nat_scope.

(** The edits of a mixed list that are for the document ([false]) or for its duplicate
    ([true]), in order. *)
Definition mine (b : bool) (es : list (bool * (bytes * op))) : list (bytes * op) :=
  map snd (filter (fun e => Bool.eqb (fst e) b) es).

(** As [holds], but the texts may be in any buffer of [all]: a duplicate shares its texts
    with the original. *)
Definition holds_sharing (s : mem) (arrs all : list darr) (d : dom) : Prop :=
  nodes_at s arrs 1 (nodes d) /\
  pairs_at s arrs 2 (firsts d) /\ pairs_at s arrs 3 (pchilds d) /\ pairs_at s arrs 4 (nexts d) /\
  pairs_at s arrs 5 (bprops d) /\ props_at s arrs 6 (props d) /\
  count_at arrs 7 (length (tag_reg d)) /\ count_at arrs 8 (length (bool_reg d)) /\
  count_at arrs 9 (length (key_reg d)) /\ count_at arrs 10 (length (val_reg d)) /\
  texts_kept s all d.

(** The five tables that may be empty: first children (2), children (3), next siblings (4),
    boolean attributes (5), attributes (6).  Every one of them that is empty in [d] is
    empty in [d'] too. *)
Definition still_empty (d d' : dom) : Prop := forall tab, 2 <= tab <= 6 -> table_len tab d = 0 -> table_len tab d' = 0.
(** One of them gets its first element. *)
Definition first_element (d d' : dom) : Prop := exists tab, 2 <= tab <= 6 /\ table_len tab d = 0 /\ table_len tab d' <> 0.

(** Bytes of arena that suffice for parsing [t], the edits [ops] (from [d0] to [d]), a
    duplicate, and the edits [es] of both (to [d1] and [d2]). *)
Definition both_bytes (t : bytes) (ops : list (bytes * op)) (es : list (bool * (bytes * op))) (d0 d d1 d2 : dom) : nat :=
  table_bytes d1 + table_bytes d2 +
  18 * (length t + text_bytes ops d0 + text_bytes (mine false es) d + text_bytes (mine true es) d).

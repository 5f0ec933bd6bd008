(** * Tries of the utility library and their iterators: util/src/hash/trie/*.c,
    util/include/flo/util/hash/trie/common-iterator.h.  Definitions only. *)
From Coq Require Import List NArith Arith Bool.
From Verif Require Import Base TrieModel MsiModel.
Import ListNotations.
Local Open Scope nat_scope.

(** The node types: string-set.h:12-16, string-uint16-map.h, uint16-set.h:12-16.
    [PNil] = NULL; [key] and [value] are the field [data] (a set has the value
    [tt]). *)
Inductive ptrie (K V : Type) : Type :=
| PNil
| PNode (key : K) (value : V) (c0 c1 c2 c3 : ptrie K V).
Arguments PNil {K V}.
Arguments PNode {K V}.

Section Trie.
  Context {K V : Type} (eqk : K -> K -> bool) (w : N).

  (** The loop of the three insertions: string-set.c:6-15, string-uint16-map.c:8-18,
      uint16-set.c:6-15.  [w] is the width of [hash]: the index is [hash >> (w - 2)]
      and the next hash is [hash << 2].  Returns the value found, or None if a node
      was added. *)
  Fixpoint pinsert (h : N) (key : K) (v : V) (t : ptrie K V) : outcome (option V * ptrie K V) :=
    match t with
    | PNil => Ok (None, PNode key v PNil PNil PNil PNil)
    | PNode k u c0 c1 c2 c3 =>
        if eqk key k then Ok (Some u, t)
        else
          let h' := N.modulo (N.shiftl h 2) (2 ^ w) in
          match N.shiftr h (w - 2) with
          | 0%N => let* '(r, c) := pinsert h' key v c0 in Ok (r, PNode k u c c1 c2 c3)
          | 1%N => let* '(r, c) := pinsert h' key v c1 in Ok (r, PNode k u c0 c c2 c3)
          | 2%N => let* '(r, c) := pinsert h' key v c2 in Ok (r, PNode k u c0 c1 c c3)
          | 3%N => let* '(r, c) := pinsert h' key v c3 in Ok (r, PNode k u c0 c1 c2 c)
          | _ => Undef OobRead
          end
    end.
End Trie.

(** [flo_trie_insertStringSet]: string-set.c:3-16.  FLO_ASSERT(key.len > 0) is empty
    in release builds. *)
Definition string_set_insert (key : bytes) (t : ptrie bytes unit) : outcome (bool * ptrie bytes unit) :=
  let* '(r, t) := pinsert beq 64 (djb2 key) key tt t in
  Ok (match r with None => true | Some _ => false end, t).

(** [flo_trie_insertStringUint16Map]: string-uint16-map.c:3-19: a new key returns
    [true] (1), whatever the value. *)
Definition string_map_insert (key : bytes) (value : N) (t : ptrie bytes N) : outcome (N * ptrie bytes N) :=
  let* '(r, t) := pinsert beq 64 (djb2 key) key value t in
  Ok (match r with None => 1%N | Some u => u end, t).

(** [flo_trie_insertUint16Set]: uint16-set.c:3-16 *)
Definition uint16_set_insert (key : N) (t : ptrie N unit) : outcome (bool * ptrie N unit) :=
  let* '(r, t) := pinsert N.eqb 16 (hash16 key) key tt t in
  Ok (match r with None => true | Some _ => false end, t).

(** Histories of insertions, starting from NULL. *)
Fixpoint string_set_run (ks : list bytes) (t : ptrie bytes unit) : outcome (list bool * ptrie bytes unit) :=
  match ks with
  | [] => Ok ([], t)
  | k :: ks' => let* '(b, t) := string_set_insert k t in
                let* '(bs, t) := string_set_run ks' t in Ok (b :: bs, t)
  end.
Fixpoint uint16_set_run (ks : list N) (t : ptrie N unit) : outcome (list bool * ptrie N unit) :=
  match ks with
  | [] => Ok ([], t)
  | k :: ks' => let* '(b, t) := uint16_set_insert k t in
                let* '(bs, t) := uint16_set_run ks' t in Ok (b :: bs, t)
  end.
Fixpoint string_map_run (ks : list (bytes * N)) (t : ptrie bytes N) : outcome (list N * ptrie bytes N) :=
  match ks with
  | [] => Ok ([], t)
  | (k, v) :: ks' => let* '(b, t) := string_map_insert k v t in
                     let* '(bs, t) := string_map_run ks' t in Ok (b :: bs, t)
  end.

(** ** Iterators *)
Section Iter.
  Context {K V : Type}.
  (** An iteration node: the trie it stands in and [index]; common-iterator.h:17-25.
      The lists are the linked lists [head] and [free]. *)
  Definition inode : Type := (ptrie K V * nat)%type.
  Record iter : Type := mkIter { it_head : list inode; it_free : list inode }.

  (** common-iterator.h:46-59 *)
  Definition iter_new (t : ptrie K V) : iter :=
    match t with
    | PNil => mkIter [] []
    | _ => mkIter [(t, 0)] []
    end.

  (** [set->data] and [set->child[i]]; [set] is never NULL. *)
  Definition pdata (t : ptrie K V) : outcome (K * V) :=
    match t with PNil => Undef NullDeref | PNode k v _ _ _ _ => Ok (k, v) end.
  Definition pchild (t : ptrie K V) (i : nat) : outcome (ptrie K V) :=
    match t with
    | PNil => Undef NullDeref
    | PNode _ _ c0 c1 c2 c3 =>
        match i with
        | 0 => Ok c0 | 1 => Ok c1 | 2 => Ok c2 | 3 => Ok c3
        | _ => Undef OobRead
        end
    end.

  (** The loop of the [next] functions: common-iterator.h:61-92.  [None] is the
      zeroed result. *)
  Fixpoint iter_next (fuel : nat) (it : iter) : outcome (option (K * V) * iter) :=
    match fuel with
    | O => NoFuel
    | S f =>
        match it_head it with
        | [] => Ok (None, it)
        | (t, index) :: rest =>
            if index =? 0 then
              let* x := pdata t in Ok (Some x, mkIter ((t, S index) :: rest) (it_free it))
            else if index =? 5 then
              iter_next f (mkIter rest ((t, S index) :: it_free it))
            else
              let* c := pchild t (index - 1) in
              match c with
              | PNil => iter_next f (mkIter ((t, S index) :: rest) (it_free it))
              | _ =>
                  (* a node from the free list gets index 0, a new one has it *)
                  let '(i, fr) := match it_free it with
                                  | [] => (0, [])
                                  | _ :: fr => (0, fr)
                                  end in
                  iter_next f (mkIter ((c, i) :: (t, S index) :: rest) fr)
              end
        end
    end.

  (** The number of iterations is bounded by the nodes that are left. *)
  Fixpoint psize (t : ptrie K V) : nat :=
    match t with
    | PNil => 0
    | PNode _ _ c0 c1 c2 c3 => S (psize c0 + psize c1 + psize c2 + psize c3)
    end.
  Definition iter_fuel (it : iter) : nat := S (list_sum (map (fun e => 7 * psize (fst e)) (it_head it))).
  Definition iter_step (it : iter) : outcome (option (K * V) * iter) := iter_next (iter_fuel it) it.

  (** The results of [n] calls of [next]. *)
  Fixpoint iter_run (n : nat) (it : iter) : outcome (list (option (K * V))) :=
    match n with
    | O => Ok []
    | S n' => let* '(x, it) := iter_step it in let* l := iter_run n' it in Ok (x :: l)
    end.
End Iter.
Arguments iter : clear implicits.

(** The nodes of the interning map have the same layout
    (include/flo/html-parser/util/string-auto-uint16-map.h:15-30) and use the same
    iterator macros (src/dom/util/string-auto-uint16-map.c:42-47). *)
Fixpoint of_trie (t : trie) : ptrie bytes nat :=
  match t with
  | Nil => PNil
  | Node k v c0 c1 c2 c3 => PNode k v (of_trie c0) (of_trie c1) (of_trie c2) (of_trie c3)
  end.

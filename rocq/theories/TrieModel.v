(** * The interning map (string -> dense uint16 id).  Definitions only. *)
From Coq Require Import List NArith Arith Bool.
From Verif Require Import Base.
Import ListNotations.
Local Open Scope N_scope.

Definition two64 : N := 2 ^ 64.

(** [flo_hashStringDjb2]: util/include/flo/util/hash/hashes.h:26-36.
    [uint64_t] arithmetic, [((hash << 5) + hash) ^ c]. *)
Definition djb2_step (h c : N) : N :=
  N.lxor ((N.shiftl h 5 + h) mod two64) c mod two64.
Definition djb2 (s : bytes) : N := fold_left djb2_step s 5381.

(** [flo_trie_StringAutoUint16Node]:
    include/flo/html-parser/util/string-auto-uint16-map.h:15-30
    (key, value and an array of four children). *)
Inductive trie : Type :=
| Nil
| Node (key : bytes) (value : nat) (c0 c1 c2 c3 : trie).

(** [flo_trie_StringAutoUint16Map]: root pointer and [identity] counter. *)
Record amap : Type := mkMap { mroot : trie; mident : nat }.
Definition empty_map : amap := mkMap Nil 0.

(** How an index outside [child[4]] is treated: [Iso] - undefined;
    [Flat64] - address arithmetic modulo 2^64 with 8-byte pointers, as a
    typical x86-64 compiler emits. *)
Inductive addressing : Type := Iso | Flat64.

(** The expression [child[hash << 62]]:
    src/dom/util/string-auto-uint16-map.c:14 and :37. *)
Definition child_index (m : addressing) (hash : N) : outcome N :=
  let idx := N.shiftl hash 62 mod two64 in
  match m with
  | Iso => if idx <? 4 then Ok idx else Undef OobRead
  | Flat64 =>
      let off := (8 * idx) mod two64 in
      if off <? 32 then Ok (off / 8) else Undef OobRead
  end.

Definition pick (i : N) (c0 c1 c2 c3 : trie) : trie :=
  match i with 0 => c0 | 1 => c1 | 2 => c2 | _ => c3 end.

(** [hash <<= 2] *)
Definition next_hash (h : N) : N := N.shiftl h 2 mod two64.

(** Loop of [flo_trie_containsStringAutoUint16Map]:
    src/dom/util/string-auto-uint16-map.c:28-40. *)
Fixpoint trie_find (m : addressing) (h : N) (key : bytes) (t : trie)
  : outcome nat :=
  match t with
  | Nil => Ok 0%nat
  | Node k v c0 c1 c2 c3 =>
      if beq key k then Ok v
      else let* i := child_index m h in
           match i with
           | 0 => trie_find m (next_hash h) key c0
           | 1 => trie_find m (next_hash h) key c1
           | 2 => trie_find m (next_hash h) key c2
           | _ => trie_find m (next_hash h) key c3
           end
  end.

Definition map_contains_m (m : addressing) (key : bytes) (s : amap)
  : outcome nat :=
  trie_find m (djb2 key) key (mroot s).

(** Writing a fresh node at the place where the search loop stopped:
    src/dom/util/string-auto-uint16-map.c:20-23. *)
Fixpoint trie_add (m : addressing) (h : N) (key : bytes) (v : nat) (t : trie)
  : outcome trie :=
  match t with
  | Nil => Ok (Node key v Nil Nil Nil Nil)
  | Node k w c0 c1 c2 c3 =>
      let* i := child_index m h in
      match i with
      | 0 => let* c := trie_add m (next_hash h) key v c0 in
             Ok (Node k w c c1 c2 c3)
      | 1 => let* c := trie_add m (next_hash h) key v c1 in
             Ok (Node k w c0 c c2 c3)
      | 2 => let* c := trie_add m (next_hash h) key v c2 in
             Ok (Node k w c0 c1 c c3)
      | _ => let* c := trie_add m (next_hash h) key v c3 in
             Ok (Node k w c0 c1 c2 c)
      end
  end.

(** [flo_trie_insertStringAutoUint16Map]:
    src/dom/util/string-auto-uint16-map.c:5-26.  Result: (wasInserted,
    entryIndex) and the new map.  The search and the final store are two
    passes here (the C code keeps the slot pointer); the path taken depends
    only on hash and key, so both passes end in the same slot. *)
Definition map_insert_m (m : addressing) (key : bytes) (s : amap)
  : outcome (bool * nat * amap) :=
  let* v := trie_find m (djb2 key) key (mroot s) in
  match v with
  | S _ => Ok (false, v, s)
  | O =>
      if N.of_nat (mident s) =? 65535 then Longjmp IdLimit
      else
        let id := S (mident s) in
        let* r := trie_add m (djb2 key) key id (mroot s) in
        Ok (true, id, mkMap r id)
  end.

(** The DOM model uses flat addressing (see DESIGN.md and theorem
    [trie_iso_out_of_bounds] for the ISO reading). *)
Definition map_contains : bytes -> amap -> outcome nat := map_contains_m Flat64.
Definition map_insert : bytes -> amap -> outcome (bool * nat * amap) :=
  map_insert_m Flat64.

(** * Buddy allocator: util/src/memory/buddy-allocator.c.  Definitions only.
    Memory is bytes at integer addresses ([MemModel.memory]), so a header and the
    data of a user share the same bytes.  [size_t] arithmetic wraps modulo 2^64.
    Pointers are integers; every access must lie between [head] and [tail]. *)
From Coq Require Import List NArith ZArith Arith Bool.
From Verif Require Import Base MemModel.
Import ListNotations.
Local Open Scope Z_scope.

(** [sizeof(flo_BuddyBlock)]: [size_t size] at 0, [bool isFree] at 8, padded:
    util/include/flo/util/memory/buddy-allocator.h:17-20 (x86-64). *)
Definition HDR : Z := 16.
(** Little-endian bytes of a [size_t]. *)
Fixpoint le_bytes (n : nat) (v : N) : bytes :=
  match n with
  | O => []
  | S n' => (v mod 256)%N :: le_bytes n' (v / 256)%N
  end.
Fixpoint le_value (b : bytes) : N :=
  match b with
  | [] => 0%N
  | x :: b' => (x + 256 * le_value b')%N
  end.

(** [flo_BuddyAllocator] without the jump buffer: buddy-allocator.h:32-37 *)
Record buddies : Type := mkBud { b_head : Z; b_tail : Z }.

Section Access.
  Context (a : buddies).
  Definition inside (p n : Z) : bool := (b_head a <=? p) && (p + n <=? b_tail a).
  (** Reads of [block->size] and [block->isFree]. *)
  Definition get_size (m : memory) (p : Z) : outcome Z :=
    if inside p 8 then Ok (Z.of_N (le_value (rd m p 8))) else Undef OobRead.
  Definition get_free (m : memory) (p : Z) : outcome bool :=
    if inside (p + 8) 1 then Ok (negb (N.eqb (m (p + 8)) 0)) else Undef OobRead.
  (** Writes. *)
  Definition set_size (m : memory) (p v : Z) : outcome memory :=
    if inside p 8 then Ok (wr m p (le_bytes 8 (Z.to_N v))) else Undef OobWrite.
  Definition set_free (m : memory) (p : Z) (f : bool) : outcome memory :=
    if inside (p + 8) 1 then Ok (wr m (p + 8) [if f then 1%N else 0%N]) else Undef OobWrite.

  (** [flo_nextBuddy]: buddy-allocator.h:22-25 *)
  Definition next_buddy (m : memory) (p : Z) : outcome Z :=
    let* s := get_size m p in Ok (p + s).

  Definition w64 (x : Z) : Z := x mod 2 ^ 64.

  (** [flo_splitBuddy]: buddy-allocator.c:4-22 for [block != NULL] (its callers
      never pass NULL).  [None] = NULL. *)
  Fixpoint split_buddy (fuel : nat) (m : memory) (block size : Z) : outcome (option Z * memory) :=
    match fuel with
    | O => NoFuel
    | S fuel =>
        let* bs := get_size m block in
        if w64 (size * 2) <? bs then
          let half := bs / 2 in
          let* m := set_size m block half in
          let* block := next_buddy m block in
          let* m := set_size m block half in
          let* m := set_free m block true in
          split_buddy fuel m block size
        else if size <=? bs then Ok (Some block, m) else Ok (None, m)
    end.

  (** [bestBlock == NULL || s < bestBlock->size] (with [<=]: [le]) *)
  Definition better (m : memory) (s : Z) (best : option Z) (le : bool) : outcome bool :=
    match best with
    | None => Ok true
    | Some b => let* bs := get_size m b in Ok (if le then s <=? bs else s <? bs)
    end.
  (** [block->isFree && size <= block->size && (bestBlock == NULL || block->size < bestBlock->size)] *)
  Definition candidate (m : memory) (size p : Z) (best : option Z) : outcome bool :=
    let* f := get_free m p in
    let* s := get_size m p in
    let* b := better m s best false in
    Ok (f && (size <=? s) && b).

  (** Loop of [flo_findBestBuddy]: buddy-allocator.c:41-85.  Returns [bestBlock]. *)
  Fixpoint find_loop (fuel : nat) (m : memory) (size : Z) (best : option Z) (block buddy : Z)
    : outcome (option Z * memory) :=
    match fuel with
    | O => NoFuel
    | S fuel =>
        if (block <? b_tail a) && (buddy <? b_tail a) then
          let* f := get_free m block in
          let* g := get_free m buddy in
          let* s := get_size m block in
          let* t := get_size m buddy in
          if f && g && (s =? t) then
            let s2 := w64 (2 * s) in
            let* m := set_size m block s2 in
            let* c := better m s2 best true in
            let best := if (size <=? s2) && c then Some block else best in
            let* block := next_buddy m buddy in
            let* buddy := if block <? b_tail a then next_buddy m block else Ok buddy in
            find_loop fuel m size best block buddy
          else
            let* c := candidate m size block best in
            let best := if c then Some block else best in
            let* c := candidate m size buddy best in
            let best := if c then Some buddy else best in
            if s <? t then
              let* block := next_buddy m buddy in
              let* buddy := if block <? b_tail a then next_buddy m block else Ok buddy in
              find_loop fuel m size best block buddy
            else
              let* buddy' := next_buddy m buddy in
              find_loop fuel m size best buddy buddy'
        else Ok (best, m)
    end.

  (** [flo_findBestBuddy]: buddy-allocator.c:24-94 *)
  Definition find_best (fuel : nat) (m : memory) (size : Z) : outcome (option Z * memory) :=
    let block := b_head a in
    let* buddy := next_buddy m block in
    let* f := get_free m block in
    if (buddy =? b_tail a) && f then split_buddy fuel m block size
    else
      let* '(best, m) := find_loop fuel m size None block buddy in
      match best with
      | Some b => split_buddy fuel m b size
      | None => Ok (None, m)
      end.

  (** Inner loop of [flo_coalesceBuddies]: buddy-allocator.c:125-154.  Returns
      [noCoalesce]. *)
  Fixpoint coalesce_pass (fuel : nat) (m : memory) (none : bool) (block buddy : Z)
    : outcome (bool * memory) :=
    match fuel with
    | O => NoFuel
    | S fuel =>
        if (block <? b_tail a) && (buddy <? b_tail a) then
          let* s := get_size m block in
          let* t := get_size m buddy in
          if s <? t then
            let* block := next_buddy m buddy in
            let* buddy := if block <? b_tail a then next_buddy m block else Ok buddy in
            coalesce_pass fuel m none block buddy
          else if t <? s then
            let* buddy' := next_buddy m buddy in
            coalesce_pass fuel m none buddy buddy'
          else
            let* f := get_free m block in
            let* g := get_free m buddy in
            if f && g then
              let* m := set_size m block (w64 (2 * s)) in
              let* block := next_buddy m block in
              if block <? b_tail a then
                let* buddy := next_buddy m block in
                coalesce_pass fuel m false block buddy
              else coalesce_pass fuel m none block buddy
            else
              let* block := next_buddy m buddy in
              let* buddy := if block <? b_tail a then next_buddy m block else Ok buddy in
              coalesce_pass fuel m none block buddy
        else Ok (none, m)
    end.
  (** [flo_coalesceBuddies]: buddy-allocator.c:116-160 *)
  Fixpoint coalesce (fuel : nat) (m : memory) : outcome memory :=
    match fuel with
    | O => NoFuel
    | S fuel' =>
        let block := b_head a in
        let* buddy := next_buddy m block in
        let* '(none, m) := coalesce_pass fuel m true block buddy in
        if none then Ok m else coalesce fuel' m
    end.

  (** [flo_buddyAlloc]: buddy-allocator.c:162-191.  [size] and [count] are
      [ptrdiff_t]: their product must not overflow.  [None] = NULL
      (FLO_NULL_ON_FAIL) or the jump. *)
  Definition buddy_alloc (fuel : nat) (m : memory) (size count : Z) (zero : bool)
    : outcome (option Z * memory) :=
    if (size * count <? - 2 ^ 63) || (2 ^ 63 <=? size * count) then Undef SignedOverflow
    else
      let total := w64 (size * count) in
      let total_size := w64 (total + HDR) in
      let* '(found, m) := find_best fuel m total_size in
      let* '(found, m) :=
        match found with
        | Some b => Ok (Some b, m)
        | None => let* m := coalesce fuel m in find_best fuel m total_size
        end in
      match found with
      | Some b =>
          let* m := set_free m b false in
          let p := b + HDR in
          if zero then
            if inside p total then Ok (Some p, wr m p (repeat 0%N (Z.to_nat total)))
            else Undef OobWrite
          else Ok (Some p, m)
      | None => Ok (None, m)
      end.

  (** [flo_freeBuddy]: buddy-allocator.c:193-202 *)
  Definition buddy_free (fuel : nat) (m : memory) (p : Z) : outcome memory :=
    let* m := set_free m (p - HDR) true in
    coalesce fuel m.
End Access.

(** [flo_createBuddyAllocator]: buddy-allocator.c:96-110 *)
Definition create_buddies (m : memory) (data size : Z) : outcome (buddies * memory) :=
  let a := mkBud data (data + size) in
  let* m := set_size a m data size in
  let* m := set_free a m data true in
  let* tail := next_buddy a m data in
  Ok (mkBud data tail, m).

(** Steps every loop needs at most (not in the code). *)
Definition bfuel (a : buddies) : nat := S (S (Z.to_nat ((b_tail a - b_head a) / 16))).

(** A program that uses one allocator: allocations and frees, and stores into the
    blocks it holds (a driver, not in the code).  A held block is its address and
    the bytes the program expects in it.  Requests outside the contract - no
    positive size, a negative or overflowing total, a block that is not held, a
    store outside the block - are skipped. *)
Inductive bop : Type :=
| BAlloc (size count : Z) (zero : bool)
| BFree (k : nat)
| BStore (k : nat) (off : nat) (data : bytes).
Definition held := list (Z * bytes).
Definition good_total (size count : Z) : bool :=
  (0 <? size) && (0 <=? count) && (size * count + HDR <? 2 ^ 63).

Definition splice (b : bytes) (off : nat) (data : bytes) : bytes :=
  firstn off b ++ data ++ skipn (off + length data) b.
Definition brun (a : buddies) (o : bop) (h : held) (m : memory) : outcome (held * memory) :=
  match o with
  | BAlloc size count zero =>
      if good_total size count then
        let* '(p, m) := buddy_alloc a (bfuel a) m size count zero in
        Ok (match p with Some p => h ++ [(p, rd m p (Z.to_nat (size * count)))] | None => h end, m)
      else Ok (h, m)
  | BFree k =>
      match nth_error h k with
      | Some (p, _) => let* m := buddy_free a (bfuel a) m p in Ok (firstn k h ++ skipn (S k) h, m)
      | None => Ok (h, m)
      end
  | BStore k off data =>
      match nth_error h k with
      | Some (p, b) =>
          if (off + length data <=? length b)%nat then
            Ok (firstn k h ++ (p, splice b off data) :: skipn (S k) h, wr m (p + Z.of_nat off) data)
          else Ok (h, m)
      | None => Ok (h, m)
      end
  end.
Fixpoint bruns (a : buddies) (l : list bop) (h : held) (m : memory) : outcome (held * memory) :=
  match l with
  | [] => Ok (h, m)
  | o :: l' => let* '(h, m) := brun a o h m in bruns a l' h m
  end.
(** Create the allocator and run. *)
Definition buddy_program (m : memory) (data size : Z) (l : list bop) : outcome (buddies * held * memory) :=
  let* '(a, m) := create_buddies m data size in
  let* '(h, m) := bruns a l [] m in Ok (a, h, m).

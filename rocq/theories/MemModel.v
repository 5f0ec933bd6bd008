(** * Arena, dynamic arrays and pool allocator.  Definitions only.
    Addresses are integers; sizes, lengths and capacities are naturals. *)
From Coq Require Import List NArith ZArith Arith Bool.
From Verif Require Import Base.
Import ListNotations.
Local Open Scope Z_scope.

(** ** Arena: util/src/memory/arena.c *)

(** [flo_Arena] without the jump buffer: util/include/flo/util/memory/arena.h:13-18 *)
Record arena : Type := mkArena { a_beg : Z; a_end : Z }.

(** [-(uintptr_t)a->beg & (align - 1)]: arena.c:12 *)
Definition padding (beg align : Z) : Z := Z.land ((- beg) mod 2 ^ 64) (align - 1).

(** [flo_alloc]: arena.c:4-25.  [None] = NULL, only with FLO_NULL_ON_FAIL
    ([nul]).  C division truncates ([Z.quot]).  Clearing the block
    (FLO_ZERO_MEMORY) is not modelled. *)
Definition alloc (nul : bool) (size align count : Z) (a : arena) : outcome (option Z * arena) :=
  let avail := a_end a - a_beg a in
  let pad := padding (a_beg a) align in
  if Z.quot (avail - pad) size <? count then
    if nul then Ok (None, a) else Longjmp ArenaFull
  else
    Ok (Some (a_beg a + pad), mkArena (a_beg a + pad + size * count) (a_end a)).

(** ** Dynamic arrays: util/include/flo/util/array.h *)

(** Contents of memory; [wr] stores bytes, [rd] reads them. *)
Definition memory := Z -> N.
Definition wr (m : memory) (p : Z) (data : bytes) : memory :=
  fun a => if (p <=? a) && (a <? p + Z.of_nat (length data))
           then nth (Z.to_nat (a - p)) data 0%N else m a.
Definition rd (m : memory) (p : Z) (n : nat) : bytes :=
  map (fun j => m (p + Z.of_nat j)) (seq 0 n).

(** Element size and alignment of an array, and [DASlice]: array.h:23-27.
    [None] = NULL. *)
Record darr : Type := mkArr {
  d_size : nat; d_align : Z;
  d_buf : option Z; d_len : nat; d_cap : nat }.

Record mem : Type := mkMem { m_arena : arena; m_cont : memory }.

(** Allocation without FLO_NULL_ON_FAIL. *)
Definition alloc1 (size align count : Z) (s : mem) : outcome (Z * mem) :=
  let* '(p, a) := alloc false size align count (m_arena s) in
  match p with
  | Some p => Ok (p, mkMem a (m_cont s))
  | None => Undef NullDeref
  end.

(** [flo_grow]: array.h:33-50 *)
Definition grow (d : darr) (s : mem) : outcome (darr * mem) :=
  let sz := Z.of_nat (d_size d) in
  let* '(buf, cap, s) :=
    match d_buf d with
    | None =>
        let* '(p, s) := alloc1 (2 * sz) (d_align d) 1 s in Ok (p, 1%nat, s)
    | Some b =>
        if a_beg (m_arena s) =? b + sz * Z.of_nat (d_cap d) then
          let* '(_, s) := alloc1 sz 1 (Z.of_nat (d_cap d)) s in Ok (b, d_cap d, s)
        else
          let* '(p, s) := alloc1 (2 * sz) (d_align d) (Z.of_nat (d_cap d)) s in
          Ok (p, d_cap d, mkMem (m_arena s)
                (wr (m_cont s) p (rd (m_cont s) b (d_size d * d_len d))))
    end in
  Ok (mkArr (d_size d) (d_align d) (Some buf) (d_len d) (2 * cap), s).

(** Storing an element in slot [k] of an array.  Outside the block of the array
    this is an out-of-bounds write. *)
Definition put (d : darr) (k : nat) (x : bytes) (s : mem) : outcome mem :=
  match d_buf d with
  | None => Undef NullDeref
  | Some b =>
      if (k <? d_cap d)%nat then
        Ok (mkMem (m_arena s) (wr (m_cont s) (b + Z.of_nat (d_size d * k)) x))
      else Undef OobWrite
  end.

(** [*FLO_PUSH(s, a) = x]: array.h:58-79 *)
Definition push (d : darr) (x : bytes) (s : mem) : outcome (darr * mem) :=
  let* '(d, s) := (if (d_cap d <=? d_len d)%nat then grow d s else Ok (d, s)) in
  let* s := put d (d_len d) x s in
  Ok (mkArr (d_size d) (d_align d) (d_buf d) (S (d_len d)) (d_cap d), s).

(** [FLO_COPY_DYNAMIC_ARRAY]: array.h:52-56 *)
Definition copy_array (d : darr) (s : mem) : outcome (darr * mem) :=
  let* '(p, s) := alloc1 (Z.of_nat (d_size d)) (d_align d) (Z.of_nat (d_len d)) s in
  let* data := (match d_buf d, d_len d with
                | Some b, _ => Ok (rd (m_cont s) b (d_size d * d_len d))
                | None, O => Ok []
                | None, _ => Undef NullDeref
                end) in
  Ok (mkArr (d_size d) (d_align d) (Some p) (d_len d) (d_len d),
      mkMem (m_arena s) (wr (m_cont s) p data)).

(** [flo_addRawData]: util/include/flo/util/raw-data.h:14-36, on an array of
    bytes ([d_size d] = 1, [d_align d] = [FLO_ALIGNOF(unsigned char)]).  The test
    of the second branch ([perm->end == raw->buf - raw->cap]) is kept as written;
    that branch keeps the old block although it was not extended.  A [memcpy] of no
    bytes to NULL is taken to do nothing. *)
Definition add_raw (d : darr) (data : bytes) (s : mem) : outcome (darr * mem) :=
  let need := (d_len d + length data)%nat in
  let* '(d, s) :=
    (if (d_cap d <? need)%nat then
       let newcap := (need * 2)%nat in
       let* '(buf, s) :=
         match d_buf d with
         | None => alloc1 (Z.of_nat (d_size d)) (d_align d) (Z.of_nat newcap) s
         | Some b =>
             if a_end (m_arena s) =? b - Z.of_nat (d_cap d) then
               let* '(_, s) := alloc1 (Z.of_nat (d_size d)) (d_align d) (Z.of_nat newcap) s in
               Ok (b, s)
             else
               let* '(p, s) := alloc1 (Z.of_nat (d_size d)) (d_align d) (Z.of_nat newcap) s in
               Ok (p, mkMem (m_arena s) (wr (m_cont s) p (rd (m_cont s) b (d_len d))))
         end in
       Ok (mkArr (d_size d) (d_align d) (Some buf) (d_len d) newcap, s)
     else Ok (d, s)) in
  let* s := (match d_buf d, data with
             | Some b, _ => Ok (mkMem (m_arena s) (wr (m_cont s) (b + Z.of_nat (d_len d)) data))
             | None, [] => Ok s
             | None, _ => Undef NullDeref
             end) in
  Ok (mkArr (d_size d) (d_align d) (d_buf d) need (d_cap d), s).

(** Reading element [k]. *)
Definition get (d : darr) (k : nat) (s : mem) : outcome bytes :=
  match d_buf d with
  | None => Undef NullDeref
  | Some b => if (k <? d_cap d)%nat
              then Ok (rd (m_cont s) (b + Z.of_nat (d_size d * k)) (d_size d))
              else Undef OobRead
  end.

(** A program that uses several arrays and other allocations of one arena. *)
Inductive mop : Type :=
| NewArr (size : nat) (align : Z)            (* a zeroed array struct *)
| Push (i : nat) (x : bytes)
| Store (i k : nat) (x : bytes)
| Copy (i : nat)
| Append (i : nat) (data : bytes)            (* [flo_addRawData] *)
| Raw (size : nat) (align : Z) (data : list bytes).
   (* another object of [length data] elements, filled with [data]; kept in the
      list of arrays so that its contents can be observed later *)

Definition mrun (o : mop) (arrs : list darr) (s : mem) : outcome (list darr * mem) :=
  match o with
  | NewArr sz al => Ok (arrs ++ [mkArr sz al None 0 0], s)
  | Push i x =>
      match nth_error arrs i with
      | None => Undef OobRead
      | Some d => let* '(d, s) := push d x s in Ok (upd arrs i d, s)
      end
  | Store i k x =>
      match nth_error arrs i with
      | None => Undef OobRead
      | Some d => let* s := put d k x s in Ok (arrs, s)
      end
  | Copy i =>
      match nth_error arrs i with
      | None => Undef OobRead
      | Some d => let* '(d', s) := copy_array d s in Ok (arrs ++ [d'], s)
      end
  | Append i data =>
      match nth_error arrs i with
      | None => Undef OobRead
      | Some d => let* '(d, s) := add_raw d data s in Ok (upd arrs i d, s)
      end
  | Raw sz al data =>
      let* '(p, s) := alloc1 (Z.of_nat sz) al (Z.of_nat (length data)) s in
      Ok (arrs ++ [mkArr sz al (Some p) (length data) (length data)],
          mkMem (m_arena s) (wr (m_cont s) p (concat data)))
  end.
Fixpoint mruns (l : list mop) (arrs : list darr) (s : mem) : outcome (list darr * mem) :=
  match l with
  | [] => Ok (arrs, s)
  | o :: l' => let* '(arrs, s) := mrun o arrs s in mruns l' arrs s
  end.

(** ** Pool allocator: util/src/memory/pool-allocator.c *)

(** [flo_PoolAllocator]; the [next] pointers stored in the chunks are a map from
    addresses.  0 = NULL. *)
Record pool : Type := mkPool {
  p_beg : Z; p_cap : Z; p_chunk : Z; p_head : Z; p_next : Z -> Z }.

Definition set_next (f : Z -> Z) (a b : Z) : Z -> Z := fun x => if x =? a then b else f x.

(** Loop of [flo_freePool]: pool-allocator.c:4-14; [n] chunks from number [i] on. *)
Fixpoint free_loop (n : nat) (i : Z) (p : pool) : pool :=
  match n with
  | O => p
  | S n' =>
      let ptr := p_beg p + i * p_chunk p in
      free_loop n' (i + 1)
        (mkPool (p_beg p) (p_cap p) (p_chunk p) ptr (set_next (p_next p) ptr (p_head p)))
  end.
Definition free_pool (p : pool) : pool :=
  free_loop (Z.to_nat (Z.quot (p_cap p) (p_chunk p))) 0 p.

(** [flo_createPoolAllocator]: pool-allocator.c:19-41 *)
Definition create_pool (buffer cap chunk : Z) (next : Z -> Z) : pool :=
  free_pool (mkPool buffer cap chunk 0 next).

(** [flo_poolAlloc]: pool-allocator.c:43-58.  [None] = NULL or longjmp.  The
    user may overwrite the chunk he gets. *)
Definition pool_alloc (p : pool) : option Z * pool :=
  if p_head p =? 0 then (None, p)
  else (Some (p_head p),
        mkPool (p_beg p) (p_cap p) (p_chunk p) (p_next p (p_head p)) (p_next p)).

(** [flo_freePoolNode]: pool-allocator.c:60-67 *)
Definition pool_free (p : pool) (ptr : Z) : pool :=
  mkPool (p_beg p) (p_cap p) (p_chunk p) ptr (set_next (p_next p) ptr (p_head p)).

(** A series of requests with FLO_NULL_ON_FAIL, so that it goes on after a
    failure: size, alignment, count. *)
Fixpoint allocs (rs : list (Z * Z * Z)) (a : arena) : outcome (list (option Z) * arena) :=
  match rs with
  | [] => Ok ([], a)
  | (size, align, count) :: rs' =>
      let* '(p, a) := alloc true size align count a in
      let* '(ps, a) := allocs rs' a in Ok (p :: ps, a)
  end.

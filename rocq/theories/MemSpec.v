(** * What a program that uses arrays of one arena should see. *)
From Coq Require Import List NArith ZArith Arith Bool.
From Verif Require Import Base MemModel.
Import ListNotations.

(** An array as its user thinks of it: the size of an element and the elements. *)
Definition aarr := (nat * list bytes)%type.

(** Requests that respect the contract: alignments are powers of two, sizes are
    positive, data has the right size, indices exist.  [Copy] of an empty array
    is excluded (see C51). *)
Definition pow2 (x : Z) : Prop := exists k, (0 <= k <= 63)%Z /\ x = (2 ^ k)%Z.

Inductive aop : list aarr -> mop -> list aarr -> Prop :=
| a_new cs sz al : 0 < sz -> pow2 al -> aop cs (NewArr sz al) (cs ++ [(sz, [])])
| a_push cs i sz xs x : nth_error cs i = Some (sz, xs) -> length x = sz ->
    aop cs (Push i x) (upd cs i (sz, xs ++ [x]))
| a_store cs i k sz xs x : nth_error cs i = Some (sz, xs) -> k < length xs -> length x = sz ->
    aop cs (Store i k x) (upd cs i (sz, upd xs k x))
| a_copy cs i sz xs : nth_error cs i = Some (sz, xs) -> xs <> [] ->
    aop cs (Copy i) (cs ++ [(sz, xs)])
| a_append cs i xs data : nth_error cs i = Some (1, xs) ->
    aop cs (Append i data) (upd cs i (1, xs ++ map (fun b => [b]) data))
| a_raw cs sz al data : 0 < sz -> pow2 al -> data <> [] -> Forall (fun x => length x = sz) data ->
    aop cs (Raw sz al data) (cs ++ [(sz, data)]).

Inductive aops : list aarr -> list mop -> list aarr -> Prop :=
| as_nil cs : aops cs [] cs
| as_cons cs o cs1 l cs2 : aop cs o cs1 -> aops cs1 l cs2 -> aops cs (o :: l) cs2.

(** The array shows [xs]: its length is right and every element reads back. *)
Definition shows_arr (s : mem) (d : darr) (a : aarr) : Prop :=
  d_size d = fst a /\ d_len d = length (snd a) /\
  forall k x, nth_error (snd a) k = Some x -> get d k s = Ok x.

(** A request and the block given for it. *)
Definition served := (Z * Z * Z * option Z)%type.
Definition good_request (r : Z * Z * Z) : Prop :=
  let '(size, align, count) := r in (0 < size)%Z /\ pow2 align /\ (0 < count)%Z.
(** The block lies between [lo] and [hi] and is aligned. *)
Definition block_in (lo hi : Z) (r : served) : Prop :=
  let '(size, align, count, p) := r in
  forall q, p = Some q -> (lo <= q /\ q mod align = 0 /\ q + size * count <= hi)%Z.
(** Two blocks have no address in common. *)
Definition blocks_disjoint (r r' : served) : Prop :=
  let '(size, align, count, p) := r in let '(size', align', count', p') := r' in
  forall q q' x, p = Some q -> p' = Some q' ->
    (q <= x < q + size * count -> ~ (q' <= x < q' + size' * count'))%Z.

(** Histories of a pool with the chunks that are in use.  The user may write
    anything to a chunk in use. *)
Inductive pool_run (buf cap chunk : Z) : pool -> list Z -> Prop :=
| pr_create next : (0 < buf)%Z -> (0 < chunk)%Z -> (0 <= cap)%Z ->
    pool_run buf cap chunk (create_pool buf cap chunk next) []
| pr_alloc p out x p' : pool_run buf cap chunk p out -> pool_alloc p = (Some x, p') ->
    pool_run buf cap chunk p' (x :: out)
| pr_free p l1 x l2 : pool_run buf cap chunk p (l1 ++ x :: l2) ->
    pool_run buf cap chunk (pool_free p x) (l1 ++ l2)
| pr_write p out x v : pool_run buf cap chunk p out -> In x out ->
    pool_run buf cap chunk
      (mkPool (p_beg p) (p_cap p) (p_chunk p) (p_head p) (set_next (p_next p) x v)) out.
(** [x] is the address of a chunk. *)
Definition is_chunk (buf cap chunk x : Z) : Prop :=
  exists i, (0 <= i /\ i * chunk + chunk <= cap /\ x = buf + i * chunk)%Z.
(** [n] allocations in a row. *)
Fixpoint pool_allocs (n : nat) (p : pool) : list (option Z) :=
  match n with
  | O => []
  | S n' => let '(x, p') := pool_alloc p in x :: pool_allocs n' p'
  end.

(** Bytes that suffice for arrays with these contents, when no alignment is larger
    than [A]. *)
Fixpoint demand (A : Z) (cs : list aarr) : Z :=
  match cs with
  | [] => 0
  | (sz, xs) :: l => (4 * Z.of_nat sz + 2 * (A - 1)) * Z.of_nat (length xs) + demand A l
  end.
Definition align_le (A : Z) (o : mop) : Prop :=
  match o with NewArr _ al | Raw _ al _ => (al <= A)%Z | _ => True end.

(** * What a program that uses the buddy allocator relies on.  Definitions only. *)
From Coq Require Import List NArith ZArith Arith Bool.
From Verif Require Import Base MemModel BuddyModel.
Import ListNotations.
Local Open Scope Z_scope.

(** The blocks of the region in address order: address, size, free? *)
Notation block := (Z * Z * bool)%type.
(** The header at [p] says size [s] and free flag [f]. *)
Definition header (a : buddies) (m : memory) (p s : Z) (f : bool) : Prop :=
  get_size a m p = Ok s /\ get_free a m p = Ok f.
Definition block_size (s : Z) : Prop := exists k, 5 <= k /\ s = 2 ^ k.
(** They tile the region from [p] to the end. *)
Fixpoint layout_from (a : buddies) (m : memory) (p : Z) (l : list block) : Prop :=
  match l with
  | [] => p = b_tail a
  | (q, s, f) :: l' => q = p /\ header a m p s f /\ block_size s /\ layout_from a m (p + s) l'
  end.
Definition layout (a : buddies) (m : memory) (l : list block) : Prop := layout_from a m (b_head a) l.

(** A held block lies in the region, behind a header of its own, 16-aligned, and
    contains what the program expects. *)
Definition held_ok (a : buddies) (m : memory) (x : Z * bytes) : Prop :=
  let '(p, b) := x in
  b_head a + HDR <= p /\ p + Z.of_nat (length b) <= b_tail a /\ (p - b_head a) mod 16 = 0 /\
  rd m p (length b) = b.
(** Two held blocks, headers included, have no address in common. *)
Definition apart (x y : Z * bytes) : Prop :=
  let '(p, b) := x in let '(q, c) := y in
  p + Z.of_nat (length b) <= q - HDR \/ q + Z.of_nat (length c) <= p - HDR.
Definition all_apart (h : held) : Prop :=
  forall i j x y, nth_error h i = Some x -> nth_error h j = Some y -> i <> j -> apart x y.
(** The blocks in use are those of the held blocks, and they are large enough. *)
Definition in_use (l : list block) (h : held) : Prop :=
  (forall p s, In (p, s, false) l -> exists b, In (p + HDR, b) h) /\
  (forall p b, In (p, b) h -> exists s, In (p - HDR, s, false) l /\ Z.of_nat (length b) + HDR <= s).

(** The program [ops], started on a region of 2^k bytes at [data], ends with the
    allocator [a], the held blocks [h] and the memory [m']. *)
Definition buddy_state (m : memory) (data k : Z) (ops : list bop) (a : buddies) (h : held) (m' : memory) : Prop :=
  0 <= data /\ 5 <= k <= 62 /\ buddy_program m data (2 ^ k) ops = Ok (a, h, m').

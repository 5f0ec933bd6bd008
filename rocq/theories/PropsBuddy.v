(** * Buddy allocator (C67-C71). *)
From Coq Require Import List NArith ZArith Arith Bool Lia.
From Verif Require Import Base MemModel MemProofs BuddyModel BuddySpec BuddyProofs BuddyUser.
Import ListNotations.
Local Open Scope Z_scope.

(** ** C67: whatever a program does with the allocator within its contract, every
    call returns and touches no byte outside the region. *)
Theorem C67_buddy_calls_return : forall m data k ops, 0 <= data -> 5 <= k <= 62 ->
  exists a h m', buddy_program m data (2 ^ k) ops = Ok (a, h, m') /\ b_head a = data /\ b_tail a = data + 2 ^ k.
Proof. exact program_runs. Qed.
Print Assumptions C67_buddy_calls_return.

(** ** C68: the held blocks lie in the region, are 16-aligned, do not overlap each
    other or the headers, and contain what the program stored, whatever else was
    allocated, freed or stored since. *)
Theorem C68_buddy_blocks_kept : forall m data k ops a h m', buddy_state m data k ops a h m' ->
  (forall x, In x h -> held_ok a m' x) /\ all_apart h.
Proof. exact program_held. Qed.
Print Assumptions C68_buddy_blocks_kept.
(** The next allocation: a new block of the right length apart from the held ones,
    zeroed if asked, or NULL; the held blocks stay as they are in both cases. *)
Theorem C68_buddy_new_block : forall m data k ops a h m1 size count zero, buddy_state m data k ops a h m1 ->
  0 < size -> 0 <= count -> size * count + HDR < 2 ^ 63 ->
  exists r m2, buddy_alloc a (bfuel a) m1 size count zero = Ok (r, m2) /\
    match r with
    | Some p => length (rd m2 p (Z.to_nat (size * count))) = Z.to_nat (size * count) /\
        (zero = true -> forall i, (0 <= i < size * count) -> m2 (p + i) = 0%N) /\
        (forall x, In x h -> held_ok a m2 x /\ apart x (p, rd m2 p (Z.to_nat (size * count)))) /\
        held_ok a m2 (p, rd m2 p (Z.to_nat (size * count)))
    | None => (forall x, In x h -> held_ok a m2 x) /\
        exists l, layout a m2 l /\ in_use l h /\ forall p s, In (p, s, true) (removelast l) -> s < size * count + HDR
    end.
Proof. exact program_alloc. Qed.
Print Assumptions C68_buddy_new_block.
(** The region is always tiled by blocks whose sizes are powers of two, and the
    used ones are exactly those of the held blocks. *)
Theorem C68_buddy_layout : forall m data k ops a h m', buddy_state m data k ops a h m' ->
  exists l, layout a m' l /\ in_use l h.
Proof. exact program_layout. Qed.
Print Assumptions C68_buddy_layout.

(** Examples and witnesses. *)
Definition m0 : memory := fun _ => 170%N.
Definition result_of (o : outcome (buddies * held * memory)) : option (buddies * list Z) :=
  match o with Ok (a, h, _) => Some (a, map fst h) | _ => None end.
Definition memory_of (o : outcome (buddies * held * memory)) : memory :=
  match o with Ok (_, _, m) => m | _ => m0 end.
Definition held_of (o : outcome (buddies * held * memory)) : held :=
  match o with Ok (_, h, _) => h | _ => [] end.
Definition refused (o : outcome (option Z * memory)) : bool :=
  match o with Ok (None, _) => true | _ => false end.
Lemma state_of data k ops a h : 0 <= data -> 5 <= k <= 62 ->
  result_of (buddy_program m0 data (2 ^ k) ops) = Some (a, h) ->
  buddy_state m0 data k ops a (held_of (buddy_program m0 data (2 ^ k) ops)) (memory_of (buddy_program m0 data (2 ^ k) ops)).
Proof.
  intros D K E. split; auto. split; auto. destruct (buddy_program m0 data (2 ^ k) ops) as [[[a' h'] m']| | |]; try discriminate.
  cbn in *. now injection E as -> _.
Qed.
Lemma refused_ok o : refused o = true -> exists m2, o = Ok (None, m2).
Proof. destruct o as [[[|] m]| | |]; try discriminate. eauto. Qed.

Definition prog1 : list bop :=
  [BAlloc 10 3 true; BAlloc 100 1 false; BStore 1 5 [1; 2; 3]%N; BStore 0 0 [9]%N; BAlloc 16 2 false; BFree 0;
   BStore 1 0 (repeat 255%N 32); BAlloc 50 1 true].
Example C67_ex : result_of (buddy_program m0 4096 (2 ^ 9) prog1) = Some (mkBud 4096 4608, [4368; 4496; 4240]) /\
  map (fun x => length (snd x)) (held_of (buddy_program m0 4096 (2 ^ 9) prog1)) = [100; 32; 50]%nat.
Proof. vm_compute. auto. Qed.

(** ** C69: "an allocation fails only if no free block is large enough" is false:
    after freeing a block, asking for the same size again can fail, because the
    scan does not look at the last block. *)
Definition prog_last : list bop :=
  [BAlloc 239 1 false; BAlloc 111 1 false; BAlloc 47 1 false; BAlloc 47 1 false; BFree 0].
Theorem C69_free_block_refused_refuted : exists m data k ops a h m1 m2 l p s,
  buddy_state m data k ops a h m1 /\ layout a m1 l /\ In (p, s, true) l /\
  buddy_alloc a (bfuel a) m1 239 1 false = Ok (None, m2) /\ 239 * 1 + HDR <= s.
Proof.
  set (P := buddy_program m0 4096 (2 ^ 9) prog_last).
  pose proof (state_of 4096 9 prog_last (mkBud 4096 4608) [4240; 4176; 4112] ltac:(lia) ltac:(lia) ltac:(vm_compute; reflexivity)) as S.
  fold P in S.
  destruct (refused_ok (buddy_alloc (mkBud 4096 4608) (bfuel (mkBud 4096 4608)) (memory_of P) 239 1 false)
     ltac:(vm_compute; reflexivity)) as (m2 & E).
  exists m0, 4096, 9, prog_last, (mkBud 4096 4608), (held_of P), (memory_of P), m2,
    [(4096, 64, false); (4160, 64, false); (4224, 128, false); (4352, 256, true)], 4352, 256.
  split; [exact S|]. split.
  { unfold layout. cbn [layout_from b_head b_tail]. repeat (split; [|split; [split; vm_compute; reflexivity|split]]); try reflexivity.
    all: first [exists 6; split; [lia|reflexivity]|exists 7; split; [lia|reflexivity]|exists 8; split; [lia|reflexivity]]. }
  split; [right; right; right; now left|]. split; [exact E|]. vm_compute. discriminate.
Qed.
Print Assumptions C69_free_block_refused_refuted.
(** What holds: no free block other than the last one would have been large
    enough (last clause of C68_buddy_new_block), and a region that is one free
    block serves everything that fits. *)
Theorem C69_fresh_region_serves : forall m data k ops a h m1 size count zero p s, buddy_state m data k ops a h m1 ->
  layout a m1 [(p, s, true)] -> 0 < size -> 0 <= count -> size * count + HDR <= s ->
  exists r m2, buddy_alloc a (bfuel a) m1 size count zero = Ok (Some r, m2).
Proof. exact program_fresh. Qed.
Print Assumptions C69_fresh_region_serves.

(** ** C70: "once everything is freed the whole region can be allocated again" is
    false: after a single allocation and its release the whole region cannot be
    allocated; and blocks that are no buddies get merged, after which the region
    never becomes whole again. *)
Definition prog_one : list bop := [BAlloc 16 1 false; BFree 0].
Definition prog_mix : list bop :=
  [BAlloc 47 1 false; BAlloc 47 1 false; BAlloc 47 1 false; BAlloc 47 1 false; BFree 1; BFree 1;
   BAlloc 111 1 false; BFree 0; BFree 0; BFree 0].
Theorem C70_region_not_recovered_refuted :
  (exists m data k ops a m1 m2, buddy_state m data k ops a [] m1 /\ ops = prog_one /\
     buddy_alloc a (bfuel a) m1 (2 ^ k - HDR) 1 false = Ok (None, m2)) /\
  (exists m data k ops a m1 m2 l p s, buddy_state m data k ops a [] m1 /\ ops = prog_mix /\
     buddy_alloc a (bfuel a) m1 (2 ^ k - HDR) 1 false = Ok (None, m2) /\
     layout a m1 l /\ In (p, s, true) l /\ (p - b_head a) mod s <> 0).
Proof.
  split.
  - set (P := buddy_program m0 4096 (2 ^ 11) prog_one).
    pose proof (state_of 4096 11 prog_one (mkBud 4096 6144) [] ltac:(lia) ltac:(lia) ltac:(vm_compute; reflexivity)) as S.
    fold P in S.
    destruct (refused_ok (buddy_alloc (mkBud 4096 6144) (bfuel (mkBud 4096 6144)) (memory_of P) (2 ^ 11 - HDR) 1 false)
       ltac:(vm_compute; reflexivity)) as (m2 & E).
    assert (H : held_of P = []) by (vm_compute; reflexivity). rewrite H in S.
    exists m0, 4096, 11, prog_one, (mkBud 4096 6144), (memory_of P), m2. auto.
  - set (P := buddy_program m0 4096 (2 ^ 8) prog_mix).
    pose proof (state_of 4096 8 prog_mix (mkBud 4096 4352) [] ltac:(lia) ltac:(lia) ltac:(vm_compute; reflexivity)) as S.
    fold P in S.
    destruct (refused_ok (buddy_alloc (mkBud 4096 4352) (bfuel (mkBud 4096 4352)) (memory_of P) (2 ^ 8 - HDR) 1 false)
       ltac:(vm_compute; reflexivity)) as (m2 & E).
    assert (H : held_of P = []) by (vm_compute; reflexivity). rewrite H in S.
    exists m0, 4096, 8, prog_mix, (mkBud 4096 4352), (memory_of P), m2,
      [(4096, 64, true); (4160, 128, true); (4288, 64, true)], 4160, 128.
    split; [exact S|]. split; auto. split; [exact E|]. split.
    { unfold layout. cbn [layout_from b_head b_tail]. repeat (split; [|split; [split; vm_compute; reflexivity|split]]); try reflexivity.
      all: first [exists 6; split; [lia|reflexivity]|exists 7; split; [lia|reflexivity]]. }
    split; [right; now left|]. vm_compute. discriminate.
Qed.
Print Assumptions C70_region_not_recovered_refuted.
(** What holds: when nothing is held every block is free. *)
Theorem C70_nothing_leaks : forall m data k ops a m', buddy_state m data k ops a [] m' ->
  exists l, layout a m' l /\ forall p s f, In (p, s, f) l -> f = true.
Proof. exact program_all_free. Qed.
Print Assumptions C70_nothing_leaks.

(** ** C71: "a request that does not fit fails and changes nothing" holds below
    2^63 - 16 bytes ... *)
Theorem C71_too_large_fails : forall m data k ops a h m1 size count zero, buddy_state m data k ops a h m1 ->
  0 < size -> 0 <= count -> 2 ^ k < size * count + HDR < 2 ^ 63 ->
  exists m2, buddy_alloc a (bfuel a) m1 size count zero = Ok (None, m2) /\ forall x, In x h -> held_ok a m2 x.
Proof. exact program_too_large. Qed.
Print Assumptions C71_too_large_fails.
(** ... and is false above: the doubled size wraps to 0, the region is split into
    ever smaller blocks and a header is written behind its end.  The product of
    size and count is not checked either. *)
Theorem C71_huge_request_refuted : exists m data k a m1, buddy_state m data k [] a [] m1 /\
  buddy_alloc a (bfuel a) m1 (2 ^ 63 - 16) 1 false = Undef OobWrite /\
  buddy_alloc a (bfuel a) m1 (2 ^ 32) (2 ^ 32) false = Undef SignedOverflow.
Proof.
  exists m0, 4096, 8, (mkBud 4096 4352), (memory_of (buddy_program m0 4096 (2 ^ 8) [])).
  split; [|split; vm_compute; reflexivity].
  exact (state_of 4096 8 [] (mkBud 4096 4352) [] ltac:(lia) ltac:(lia) ltac:(vm_compute; reflexivity)).
Qed.
Print Assumptions C71_huge_request_refuted.
Example C71_ex : exists a h m1, buddy_state m0 4096 9 prog1 a h m1 /\ h <> [] /\ 2 ^ 9 < 1000 * 1 + HDR < 2 ^ 63.
Proof.
  do 3 eexists. split; [eapply state_of; [lia|lia|vm_compute; reflexivity]|]. split; [vm_compute; discriminate|unfold HDR; lia].
Qed.
Example C69_ex : exists a m1 p s, buddy_state m0 4096 9 [] a [] m1 /\ layout a m1 [(p, s, true)] /\ 400 * 1 + HDR <= s.
Proof.
  exists (mkBud 4096 4608), (memory_of (buddy_program m0 4096 (2 ^ 9) [])), 4096, 512.
  split; [exact (state_of 4096 9 [] (mkBud 4096 4608) [] ltac:(lia) ltac:(lia) ltac:(vm_compute; reflexivity))|].
  split; [|unfold HDR; lia].
  unfold layout. cbn [layout_from b_head b_tail]. split; auto. split; [split; vm_compute; reflexivity|]. split; [exists 9; split; [lia|reflexivity]|reflexivity].
Qed.

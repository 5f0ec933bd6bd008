(** * Memory: arena, arrays, text buffers, pool (C51, C57, C58, C59, C64, C72, C74). *)
From Coq Require Import List NArith ZArith Arith Bool Lia.
From Verif Require Import Base Lemmas MemModel MemSpec MemProofs MemCost PoolProofs.
Import ListNotations.
Local Open Scope Z_scope.

(** C57: for any series of requests, every block is aligned and inside the arena,
    and no two blocks overlap. *)
Theorem C57_arena_blocks : forall rs a, Forall good_request rs ->
  exists ps a', allocs rs a = Ok (ps, a') /\ length ps = length rs /\
    Forall (block_in (a_beg a) (a_end a)) (combine rs ps) /\
    ForallOrdPairs blocks_disjoint (combine rs ps).
Proof.
  intros rs a F. destruct (allocs_ok rs a F) as (ps & a' & H1 & H2 & _ & _ & _ & _ & H3 & H4). eauto 10.
Qed.
Print Assumptions C57_arena_blocks.

(** C57: a request fails exactly when no aligned block of that size is left, and
    then the arena is as before; without FLO_NULL_ON_FAIL it jumps instead. *)
Theorem C57_arena_full : forall nul size align count a, 0 < size -> pow2 align -> 0 < count ->
  let room := exists q, a_beg a <= q /\ q mod align = 0 /\ q + size * count <= a_end a in
  (room -> exists q a', alloc nul size align count a = Ok (Some q, a')) /\
  (~ room -> alloc nul size align count a = if nul then Ok (None, a) else Longjmp ArenaFull).
Proof.
  intros nul size align count a S P C room. destruct (alloc_cases nul size align count a S P C) as [(q & a' & E)|[N E]].
  - split; [eauto|]. intros H. exfalso. apply H. destruct (alloc_ok _ _ _ _ _ _ _ S P C E) as (H1 & H2 & H3 & H4 & H5).
    exists q. rewrite H3, <- H5. auto.
  - split; [|intros _; exact E]. intros (q & Q1 & Q2 & Q3). specialize (N q Q1 Q2). lia.
Qed.
Print Assumptions C57_arena_full.

Example C57_ex : Forall good_request [(8, 8, 3); (1, 1, 5); (4, 4, 2); (8, 8, 100)] /\
  allocs [(8, 8, 3); (1, 1, 5); (4, 4, 2); (8, 8, 100)] (mkArena 1001 1100) =
  Ok ([Some 1008; Some 1032; Some 1040; None], mkArena 1048 1100).
Proof.
  split; [|reflexivity].
  repeat constructor; try lia; [exists 3|exists 0|exists 2|exists 3]; split; (lia || reflexivity).
Qed.

(** C57 fails for requests of zero elements: the address may be past the end of
    the arena, and the arena is then left with negative room. *)
Theorem C57_zero_count_refuted : exists a, a_beg a <= a_end a /\
  alloc true 8 8 0 a = Ok (Some (a_end a + 7), mkArena (a_end a + 7) (a_end a)).
Proof. exists (mkArena 1 1). split; [cbn; lia|reflexivity]. Qed.
Print Assumptions C57_zero_count_refuted.

(** C58: for any program that pushes to, stores in and copies any number of
    arrays of one arena and allocates other objects in between: it never goes
    outside the memory it owns, every array reads back exactly the elements the
    user put there, and nothing outside the arena changes.  The only other result
    is that the arena is full. *)
Theorem C58_arrays_keep_contents : forall ops cs s, aops [] ops cs ->
  a_beg (m_arena s) <= a_end (m_arena s) ->
  mruns ops [] s = Longjmp ArenaFull \/
  exists arrs s', mruns ops [] s = Ok (arrs, s') /\ Forall2 (shows_arr s') arrs cs /\
    forall a, a < a_beg (m_arena s) \/ a_end (m_arena s) <= a -> m_cont s' a = m_cont s a.
Proof.
  intros ops cs s H I. pose proof (mruns_safe (a_beg (m_arena s)) ops s [] [] cs (ok_fresh s) H I) as W.
  destruct (mruns ops [] s) as [[ds s']| |[]|]; cbn in W; try contradiction; [|now left].
  destruct W as [W F]. right. exists ds, s'. split; [reflexivity|]. split; [apply (ok_shows _ _ _ _ W)|apply F].
Qed.
Print Assumptions C58_arrays_keep_contents.

(** Two arrays that grow in turns, one of them in place, and a third object. *)
Example C58_ex : exists ops cs s arrs s',
  aops [] ops cs /\ a_beg (m_arena s) <= a_end (m_arena s) /\ mruns ops [] s = Ok (arrs, s') /\
  cs = [(2%nat, [[1; 2]; [3; 4]; [9; 9]; [7; 8]]%N); (1%nat, [[5]; [6]]%N); (1%nat, [[42]; [43]]%N);
        (2%nat, [[1; 2]; [3; 4]; [9; 9]]%N)].
Proof.
  exists [NewArr 2 2; NewArr 1 1; Push 0 [1; 2]%N; Push 0 [3; 4]%N; Push 1 [5]%N; Push 1 [6]%N;
          Raw 1 1 [[42]; [43]]%N; Push 0 [0; 0]%N; Store 0 2 [9; 9]%N; Copy 0; Push 0 [7; 8]%N].
  eexists. exists (mkMem (mkArena 101 200) (fun _ => 0%N)). eexists. eexists. split.
  - eapply as_cons; [apply a_new; [lia|exists 1; split; [lia|reflexivity]]|].
    eapply as_cons; [apply a_new; [lia|exists 0; split; [lia|reflexivity]]|].
    do 4 (eapply as_cons; [eapply a_push; reflexivity|]).
    eapply as_cons; [apply a_raw; [lia|exists 0; split; [lia|reflexivity]|discriminate|repeat constructor]|].
    eapply as_cons; [eapply a_push; reflexivity|].
    eapply as_cons; [eapply a_store; [reflexivity|cbn; lia|reflexivity]|].
    eapply as_cons; [eapply a_copy; [reflexivity|discriminate]|].
    eapply as_cons; [eapply a_push; reflexivity|]. apply as_nil.
  - split; [cbn; lia|]. split; [|reflexivity]. vm_compute. reflexivity.
Qed.

(** C51 is false: the copy of an array that is empty gets capacity 0, and
    doubling it gives 0 again, so that whatever happens in between
    the first push to the copy writes outside its block (or the arena is full). *)
Theorem C51_push_to_copied_empty_refuted : forall d s d1 s1, d_len d = 0%nat ->
  copy_array d s = Ok (d1, s1) ->
  forall x s2, push d1 x s2 = Undef OobWrite \/ push d1 x s2 = Longjmp ArenaFull.
Proof.
  intros d s d1 s1 L E x s2. unfold copy_array in E.
  destruct (alloc1 _ _ _ s) as [[p s']| | |]; cbn [bind] in E; try discriminate.
  assert (C : d_cap d1 = 0%nat /\ d_len d1 = 0%nat /\ exists b, d_buf d1 = Some b).
  { destruct (d_buf d); [|rewrite L in E]; cbn [bind] in E; injection E as <- <-; cbn; eauto. }
  destruct C as (C1 & C2 & b & C3). unfold push. rewrite C1, C2. cbn [Nat.leb]. unfold grow. rewrite C3, C1.
  destruct (_ =? _).
  - destruct (alloc1_safe (Z.of_nat (d_size d1)) 1 (Z.of_nat 0) s2) as [(q & s3 & F)|F]; rewrite F; cbn [bind]; [now left|now right].
  - destruct (alloc1_safe (2 * Z.of_nat (d_size d1)) (d_align d1) (Z.of_nat 0) s2) as [(q & s3 & F)|F]; rewrite F; cbn [bind]; [now left|now right].
Qed.
Print Assumptions C51_push_to_copied_empty_refuted.

(** It happens as soon as the arena has a little room. *)
Example C51_ex : exists s, forall x,
  mruns [NewArr 4 4; Copy 0; Push 1 x] [] s = Undef OobWrite.
Proof. exists (mkMem (mkArena 100 200) (fun _ => 0%N)). reflexivity. Qed.

(** Copies of arrays that are not empty can be pushed to: this is a case of C58. *)
Theorem C51_push_to_copy_partial : forall xs al sz x s, pow2 al -> (0 < sz)%nat -> xs <> [] ->
  Forall (fun y => length y = sz) xs -> length x = sz -> a_beg (m_arena s) <= a_end (m_arena s) ->
  let ops := NewArr sz al :: map (Push 0) xs ++ [Copy 0; Push 1 x] in
  mruns ops [] s = Longjmp ArenaFull \/
  exists d d1 s', mruns ops [] s = Ok ([d; d1], s') /\
    shows_arr s' d (sz, xs) /\ shows_arr s' d1 (sz, xs ++ [x]).
Proof.
  intros xs al sz x s P S N F X I ops.
  assert (A : aops [] ops [(sz, xs); (sz, xs ++ [x])]).
  { apply as_cons with (cs1 := [(sz, [])]); [now apply (a_new [])|].
    assert (G : forall ys, Forall (fun y => length y = sz) xs ->
      aops [(sz, ys)] (map (Push 0) xs ++ [Copy 0; Push 1 x]) [(sz, ys ++ xs); (sz, ys ++ xs ++ [x])]
      \/ ys ++ xs = []).
    { clear N F. induction xs as [|y xs IH]; intros ys F.
      - destruct ys as [|y ys]; [now right|left]. cbn [map app]. rewrite app_nil_r.
        eapply as_cons; [eapply (a_copy _ 0); [reflexivity|discriminate]|].
        eapply as_cons; [eapply (a_push _ 1); [reflexivity|exact X]|]. apply as_nil.
      - left. cbn [map app]. eapply as_cons; [eapply (a_push _ 0); [reflexivity|apply (Forall_inv F)]|].
        cbn [upd]. destruct (IH (ys ++ [y]) (Forall_inv_tail F)) as [H|H].
        + rewrite <- !app_assoc in H. exact H.
        + destruct ys; discriminate. }
    destruct (G [] F) as [H|H]; [exact H|destruct (N H)]. }
  destruct (C58_arrays_keep_contents ops _ s A I) as [E|(arrs & s' & E & H & _)]; [now left|right].
  inversion H as [|d ? l ? H1 H2]; subst. inversion H2 as [|d1 ? l' ? H3 H4]; subst. inversion H4; subst.
  exists d, d1, s'. auto.
Qed.
Print Assumptions C51_push_to_copy_partial.

(** C59: in every history of a pool the chunks in use are different chunks of the
    buffer; an allocation gives a chunk that is not in use, and fails exactly when
    all [cap / chunk] chunks are in use. *)
Theorem C59_pool : forall buf cap chunk p out, pool_run buf cap chunk p out ->
  NoDup out /\ Forall (is_chunk buf cap chunk) out /\ Z.of_nat (length out) <= cap / chunk /\
  (forall x p', pool_alloc p = (Some x, p') -> ~ In x out /\ is_chunk buf cap chunk x) /\
  (forall p', pool_alloc p = (None, p') -> p' = p /\ Z.of_nat (length out) = cap / chunk) /\
  (Z.of_nat (length out) = cap / chunk -> pool_alloc p = (None, p)).
Proof. exact pool_out. Qed.
Print Assumptions C59_pool.

(** Different chunks do not overlap. *)
Theorem C59_chunks_disjoint : forall buf cap chunk x y a,
  is_chunk buf cap chunk x -> is_chunk buf cap chunk y -> x <> y ->
  x <= a < x + chunk -> buf <= a < buf + cap /\ ~ (y <= a < y + chunk).
Proof. intros buf cap chunk x y a (i & I1 & I2 & ->) (j & J1 & J2 & ->) N A. split; [nia|]. intros A'.
  assert (i <> j) by congruence. destruct (Z.lt_ge_cases i j); nia.
Qed.
Print Assumptions C59_chunks_disjoint.

Example C59_ex : exists p, pool_run 1000 64 16 p [1016; 1048] /\
  pool_alloc p = (Some 1032, mkPool 1000 64 16 1000 (p_next p)).
Proof.
  pose proof (pr_create 1000 64 16 (fun _ => 0) ltac:(lia) ltac:(lia) ltac:(lia)) as H.
  eapply pr_alloc in H; [|reflexivity]. eapply pr_alloc in H; [|reflexivity]. eapply pr_alloc in H; [|reflexivity].
  apply pr_write with (x := 1048) (v := 77) in H; [|cbv; auto].
  apply (pr_free _ _ _ _ [1016] 1032 [1048]) in H.
  eexists. split; [exact H|]. reflexivity.
Qed.

(** C64: [flo_freePool] gives all chunks back, once each.  This is true for an
    exhausted pool. *)
Theorem C64_free_exhausted_partial : forall buf cap chunk p out, pool_run buf cap chunk p out ->
  fst (pool_alloc p) = None -> pool_run buf cap chunk (free_pool p) [].
Proof. exact free_empty. Qed.
Print Assumptions C64_free_exhausted_partial.

(** It is false for every pool with a free chunk: afterwards the pool never runs
    out, so it hands out chunks that are in use. *)
Theorem C64_free_pool_refuted : forall buf cap chunk p out, pool_run buf cap chunk p out ->
  fst (pool_alloc p) <> None -> forall n, ~ In None (pool_allocs n (free_pool p)).
Proof. exact free_used. Qed.
Print Assumptions C64_free_pool_refuted.

Example C64_ex : exists p, pool_run 1000 64 16 p [1048] /\ fst (pool_alloc p) <> None /\
  pool_allocs 5 (free_pool p) = [Some 1048; Some 1032; Some 1016; Some 1000; Some 1032].
Proof.
  pose proof (pr_create 1000 64 16 (fun _ => 0) ltac:(lia) ltac:(lia) ltac:(lia)) as H.
  eapply pr_alloc in H; [|reflexivity].
  eexists. split; [exact H|]. split; [discriminate|reflexivity].
Qed.

(** ** C72: text put together piece by piece ([flo_addRawData]) is the
    concatenation of the pieces. *)
Definition text_run (pieces : list bytes) : list mop := NewArr 1 1 :: map (Append 0) pieces.
Lemma append_aops pieces : forall xs, aops [(1%nat, xs)] (map (Append 0) pieces)
  [(1%nat, xs ++ map (fun b => [b]) (concat pieces))].
Proof.
  induction pieces as [|p l IH]; intros xs; cbn [map concat].
  - rewrite app_nil_r. apply as_nil.
  - eapply as_cons; [apply a_append; reflexivity|]. cbn [upd]. rewrite map_app, app_assoc. apply IH.
Qed.
Lemma text_aops pieces : aops [] (text_run pieces) [(1%nat, map (fun b => [b]) (concat pieces))].
Proof.
  eapply as_cons; [apply a_new; [lia|exact pow2_one]|]. apply (append_aops pieces []).
Qed.
Theorem C72_text_is_concatenation : forall pieces s, a_beg (m_arena s) <= a_end (m_arena s) ->
  mruns (text_run pieces) [] s = Longjmp ArenaFull \/
  exists d s', mruns (text_run pieces) [] s = Ok ([d], s') /\ d_len d = length (concat pieces) /\
    match d_buf d with
    | Some b => rd (m_cont s') b (d_len d) = concat pieces /\
                a_beg (m_arena s) <= b /\ b + Z.of_nat (d_cap d) <= a_end (m_arena s)
    | None => concat pieces = []
    end /\
    forall a, a < a_beg (m_arena s) \/ a_end (m_arena s) <= a -> m_cont s' a = m_cont s a.
Proof.
  intros pieces s I.
  pose proof (mruns_safe (a_beg (m_arena s)) _ s [] [] _ (ok_fresh s) (text_aops pieces) I) as W.
  destruct (mruns (text_run pieces) [] s) as [[ds s']| |[]|]; cbn [safe_m] in W; try contradiction; [|now left].
  destruct W as [W F]. right. destruct (ok_nth _ _ _ _ 0 _ _ W eq_refl) as (d & N & Sz & O).
  pose proof (oa_len _ _ _ _ (proj1 W)) as L. cbn in L.
  destruct ds as [|d0 [|d1 ds]]; try discriminate. injection N as ->.
  exists d, s'. split; [reflexivity|]. pose proof (ao_len _ _ _ _ O) as Ln. rewrite map_length in Ln.
  split; [exact Ln|]. split; [|apply F]. pose proof (ao_buf _ _ _ _ O) as Q. destruct (d_buf d) as [b|].
  - destruct Q as (_ & _ & _ & Q4 & Q5 & Q6). rewrite Sz, Nat.mul_1_l in *. rewrite concat_singles in Q6.
    split; [exact Q6|]. split; [exact Q4|]. pose proof (fr_in _ _ _ F). rewrite (fr_end _ _ _ F) in *. lia.
  - destruct Q as [Q _]. apply length_zero_iff_nil. unfold bytes in *. lia.
Qed.
Print Assumptions C72_text_is_concatenation.

(** C72: room for four times the text is enough. *)
Theorem C72_text_fits : forall pieces s,
  a_beg (m_arena s) + 4 * Z.of_nat (length (concat pieces)) <= a_end (m_arena s) ->
  exists d s', mruns (text_run pieces) [] s = Ok ([d], s').
Proof.
  intros pieces s R.
  destruct (mruns_fits 1 (a_beg (m_arena s)) _ ltac:(lia) s [] [] _ (ok_fresh s) (text_aops pieces)) as (ds & s' & E).
  - unfold text_run. constructor; [cbn; lia|]. clear. induction pieces; cbn; constructor; cbn; auto.
  - constructor.
  - unfold within. cbn. lia.
  - lia.
  - cbn [demand]. rewrite map_length. unfold bytes in *. lia.
  - destruct (C72_text_is_concatenation pieces s) as [H|(d & s1 & H & _)]; [lia|congruence|eauto].
Qed.
Print Assumptions C72_text_fits.
Example C72_ex : let s := mkMem (mkArena 100 164) (fun _ => 7%N) in
  let ps := [[104; 101]; []; [32]; [121; 111; 117; 33]; [1; 2; 3; 4; 5; 6; 7]]%N in
  a_beg (m_arena s) + 4 * Z.of_nat (length (concat ps)) <= a_end (m_arena s) /\
  exists d s', mruns (text_run ps) [] s = Ok ([d], s') /\ d_buf d = Some 104 /\ d_len d = 14%nat /\ d_cap d = 14%nat.
Proof. split; [cbv; congruence|]. do 2 eexists. vm_compute. auto. Qed.

(** ** C74: the arena space that a program with arrays needs is linear in what the
    arrays hold at the end, whatever the order in which they grow. *)
Theorem C74_linear_memory : forall ops cs A s, aops [] ops cs -> 1 <= A -> Forall (align_le A) ops ->
  a_beg (m_arena s) + demand A cs <= a_end (m_arena s) -> a_beg (m_arena s) <= a_end (m_arena s) ->
  exists arrs s', mruns ops [] s = Ok (arrs, s').
Proof.
  intros ops cs A s H A1 Al R I.
  apply (mruns_fits A (a_beg (m_arena s)) ops A1 s [] [] cs (ok_fresh s) H Al); [constructor|unfold within; cbn; lia|exact I|lia].
Qed.
Print Assumptions C74_linear_memory.
(** Two arrays that grow in turns, in an arena of exactly that size. *)
Example C74_ex : exists ops cs s, aops [] ops cs /\ Forall (align_le 4) ops /\
  a_beg (m_arena s) + demand 4 cs = a_end (m_arena s) /\ demand 4 cs = 160.
Proof.
  exists [NewArr 4 4; NewArr 2 2; Push 0 [1; 2; 3; 4]%N; Push 1 [5; 6]%N; Push 0 [7; 7; 7; 7]%N; Push 0 [8; 8; 8; 8]%N;
          Copy 0; Push 1 [9; 9]%N].
  eexists. exists (mkMem (mkArena 1 161) (fun _ => 0%N)). split; [|split; [|split]].
  - eapply as_cons; [apply a_new; [lia|exists 2; split; [lia|reflexivity]]|].
    eapply as_cons; [apply a_new; [lia|exists 1; split; [lia|reflexivity]]|].
    do 4 (eapply as_cons; [eapply a_push; reflexivity|]).
    eapply as_cons; [eapply a_copy; [reflexivity|discriminate]|].
    eapply as_cons; [eapply a_push; reflexivity|]. apply as_nil.
  - repeat constructor; cbn; lia.
  - vm_compute. reflexivity.
  - vm_compute. reflexivity.
Qed.

(** * Proofs about series of arena requests and about the pool. *)
From Coq Require Import List NArith ZArith Arith Bool Lia Permutation.
From Verif Require Import Base Lemmas MemModel MemSpec MemProofs.
Import ListNotations.
Local Open Scope Z_scope.

Lemma alloc_cases nul size align count a : 0 < size -> pow2 align -> 0 < count ->
  (exists p a', alloc nul size align count a = Ok (Some p, a')) \/
  ((forall q, a_beg a <= q -> q mod align = 0 -> a_end a < q + size * count) /\
   alloc nul size align count a = if nul then Ok (None, a) else Longjmp ArenaFull).
Proof.
  intros S P C. unfold alloc. pose proof (pad_bounds (a_beg a) align P) as B.
  destruct (Z.ltb_spec (Z.quot (a_end a - a_beg a - padding (a_beg a) align) size) count) as [L|L]; [right|left; eauto].
  split; [|reflexivity]. intros q Q M. pose proof (pad_least _ _ _ P Q M) as W.
  set (r := a_end a - a_beg a - padding (a_beg a) align) in *.
  destruct (Z.lt_ge_cases r 0) as [R|R]; [nia|].
  rewrite Z.quot_div_nonneg in L by lia. pose proof (Z.mul_succ_div_gt r size S). nia.
Qed.

Lemma allocs_ok : forall rs a, Forall good_request rs ->
  exists ps a', allocs rs a = Ok (ps, a') /\ length ps = length rs /\
    a_beg a <= a_beg a' /\ a_end a' = a_end a /\ (a_beg a <= a_end a -> a_beg a' <= a_end a) /\
    Forall (block_in (a_beg a) (a_beg a')) (combine rs ps) /\
    Forall (block_in (a_beg a) (a_end a)) (combine rs ps) /\
    ForallOrdPairs blocks_disjoint (combine rs ps).
Proof.
  induction rs as [|[[size align] count] rs IH]; intros a F.
  - exists [], a. cbn. repeat split; auto; try lia; constructor.
  - pose proof (Forall_inv F) as (S & P & C). apply Forall_inv_tail in F. cbn [allocs].
    destruct (alloc_cases true size align count a S P C) as [(p & a1 & E)|[_ E]]; rewrite E; cbn [bind].
    + destruct (IH a1 F) as (ps & a' & E' & L & B1 & B2 & B3 & F1 & F1' & F2). rewrite E'. cbn [bind].
      exists (Some p :: ps), a'. destruct (alloc_ok _ _ _ _ _ _ _ S P C E) as (H1 & H2 & H3 & H4 & H5).
      assert (0 < size * count) by nia.
      split; [reflexivity|]. split; [cbn; lia|]. split; [lia|]. split; [congruence|]. split; [intros _; rewrite <- H5; apply B3; lia|].
      cbn [combine]. split; [|split].
      * constructor; [intros q [= <-]; lia|]. revert F1. apply Forall_impl. intros [[[s0 al] c] q0] H' q Q.
        specialize (H' q Q). lia.
      * constructor; [intros q [= <-]; specialize (B3 H4); lia|]. revert F1'. apply Forall_impl. intros [[[s0 al] c] q0] H' q Q.
        specialize (H' q Q). lia.
      * constructor; [|exact F2]. revert F1. apply Forall_impl. intros [[[s0 al] c] q0] H' q q' x Q Q' X X'.
        injection Q as <-. specialize (H' _ Q'). lia.
    + destruct (IH a F) as (ps & a' & E' & L & B1 & B2 & B3 & F1 & F1' & F2). rewrite E'. cbn [bind].
      exists (None :: ps), a'. split; [reflexivity|]. split; [cbn; lia|]. split; [lia|]. split; [congruence|]. split; [exact B3|].
      cbn [combine]. split; [|split].
      * constructor; [discriminate|exact F1].
      * constructor; [discriminate|exact F1'].
      * constructor; [|exact F2]. apply Forall_forall. intros [[[s0 al] c] q0] _ q q' x Q. discriminate.
Qed.

(** ** Pool *)
Fixpoint chain (nx : Z -> Z) (h : Z) (l : list Z) : Prop :=
  match l with
  | [] => h = 0
  | x :: l' => h = x /\ x <> 0 /\ chain nx (nx x) l'
  end.
Definition chunks (buf chunk : Z) (n : nat) : list Z := map (fun i => buf + Z.of_nat i * chunk) (seq 0 n).

Lemma chain_frame nx h l x v : ~ In x l -> chain nx h l -> chain (set_next nx x v) h l.
Proof.
  revert h. induction l as [|y l IH]; intros h N C; cbn in *; [exact C|].
  destruct C as (-> & Y & C). split; [reflexivity|]. split; [exact Y|].
  unfold set_next at 2. destruct (Z.eqb_spec y x); [tauto|]. apply IH; tauto.
Qed.

Lemma free_loop_ok : forall n k p l, 0 < p_beg p -> 0 < p_chunk p ->
  chain (p_next p) (p_head p) l -> Permutation l (chunks (p_beg p) (p_chunk p) k) ->
  let p' := free_loop n (Z.of_nat k) p in
  p_beg p' = p_beg p /\ p_cap p' = p_cap p /\ p_chunk p' = p_chunk p /\
  exists l', chain (p_next p') (p_head p') l' /\ Permutation l' (chunks (p_beg p) (p_chunk p) (k + n)).
Proof.
  induction n as [|n IH]; intros k p l Hb Hc C P; cbn [free_loop].
  - rewrite Nat.add_0_r. eauto 10.
  - set (x := p_beg p + Z.of_nat k * p_chunk p).
    assert (Nx : ~ In x l).
    { intros H. apply (Permutation_in _ P) in H. apply in_map_iff in H. destruct H as (i & E & H). apply in_seq in H. unfold x in E. nia. }
    replace (Z.of_nat k + 1) with (Z.of_nat (S k)) by lia.
    specialize (IH (S k) (mkPool (p_beg p) (p_cap p) (p_chunk p) x (set_next (p_next p) x (p_head p))) (x :: l) Hb Hc).
    cbn [p_beg p_cap p_chunk p_head p_next] in IH. rewrite Nat.add_succ_r. apply IH.
    + cbn. split; [reflexivity|]. split; [unfold x; nia|]. unfold set_next at 2. rewrite Z.eqb_refl. now apply chain_frame.
    + unfold chunks. rewrite seq_S, map_app. cbn [map Nat.add]. fold x.
      rewrite <- Permutation_cons_append. now constructor.
Qed.

Lemma chunks_NoDup buf chunk n : 0 < chunk -> NoDup (chunks buf chunk n).
Proof.
  intros C. apply FinFun.Injective_map_NoDup; [|apply seq_NoDup]. intros i j E. nia.
Qed.

Definition pinv (buf cap chunk : Z) (p : pool) (out : list Z) : Prop :=
  0 < buf /\ 0 < chunk /\ 0 <= cap /\ p_beg p = buf /\ p_cap p = cap /\ p_chunk p = chunk /\
  exists fl, chain (p_next p) (p_head p) fl /\ Permutation (fl ++ out) (chunks buf chunk (Z.to_nat (cap / chunk))).

Lemma pinv_free_pool buf cap chunk p : 0 < buf -> 0 < chunk -> 0 <= cap ->
  p_beg p = buf -> p_cap p = cap -> p_chunk p = chunk -> p_head p = 0 ->
  pinv buf cap chunk (free_pool p) [].
Proof.
  intros B C D <- <- <- H. unfold free_pool.
  destruct (free_loop_ok (Z.to_nat (Z.quot (p_cap p) (p_chunk p))) 0 p [] B C) as (E1 & E2 & E3 & l & E4 & E5); [exact H|reflexivity|].
  cbn [Nat.add Z.of_nat] in *. rewrite Z.quot_div_nonneg in * by lia.
  repeat split; auto. exists l. rewrite app_nil_r. auto.
Qed.

Lemma pinv_run buf cap chunk p out : pool_run buf cap chunk p out -> pinv buf cap chunk p out.
Proof.
  induction 1 as [next B C D|p out x p' H (B & C & D & E1 & E2 & E3 & fl & E4 & E5) A|p l1 x l2 H (B & C & D & E1 & E2 & E3 & fl & E4 & E5)|p out x v H (B & C & D & E1 & E2 & E3 & fl & E4 & E5) A].
  - unfold create_pool. apply pinv_free_pool; auto.
  - unfold pool_alloc in A. destruct (Z.eqb_spec (p_head p) 0) as [|N]; [discriminate|]. injection A as <- <-.
    repeat split; auto. destruct fl as [|y fl]; [cbn in E4; congruence|]. cbn in E4. destruct E4 as (-> & _ & E4).
    cbn [p_next p_head]. exists fl. split; [exact E4|]. rewrite <- E5. cbn [app]. symmetry. apply Permutation_middle.
  - assert (ND : NoDup (fl ++ l1 ++ x :: l2)) by (eapply Permutation_NoDup; [symmetry; exact E5|apply chunks_NoDup, C]).
    repeat split; auto. cbn [p_next p_head pool_free]. exists (x :: fl).
    assert (Nx : ~ In x (fl ++ l1 ++ l2)).
    { rewrite app_assoc in ND. apply NoDup_remove_2 in ND. now rewrite <- app_assoc in ND. }
    split.
    + cbn. split; [reflexivity|]. split.
      * assert (Hx : In x (chunks buf chunk (Z.to_nat (cap / chunk)))) by (apply (Permutation_in _ E5); rewrite !in_app_iff; cbn; auto).
        apply in_map_iff in Hx. destruct Hx as (i & <- & _). nia.
      * unfold set_next at 2. rewrite Z.eqb_refl. apply chain_frame; [|exact E4]. rewrite in_app_iff in Nx. tauto.
    + rewrite <- E5. cbn [app]. rewrite !app_assoc. apply Permutation_middle.
  - assert (ND : NoDup (fl ++ out)) by (eapply Permutation_NoDup; [symmetry; exact E5|apply chunks_NoDup, C]).
    repeat split; auto. cbn [p_next p_head]. exists fl. split; [|exact E5]. apply chain_frame; [|exact E4].
    intros Hx. apply in_split in A. destruct A as (a & b & ->). rewrite app_assoc in ND. apply NoDup_remove_2 in ND.
    rewrite !in_app_iff in ND. tauto.
Qed.

Lemma chunk_in buf cap chunk x : 0 < chunk -> 0 <= cap ->
  In x (chunks buf chunk (Z.to_nat (cap / chunk))) -> is_chunk buf cap chunk x.
Proof.
  intros C D H. apply in_map_iff in H. destruct H as (i & <- & H). apply in_seq in H. exists (Z.of_nat i).
  assert (Z.of_nat i < cap / chunk) by lia. pose proof (Z.mul_div_le cap chunk C). split; [lia|]. split; [nia|reflexivity].
Qed.

Lemma pool_out buf cap chunk p out : pool_run buf cap chunk p out ->
  NoDup out /\ Forall (is_chunk buf cap chunk) out /\ Z.of_nat (length out) <= cap / chunk /\
  (forall x p', pool_alloc p = (Some x, p') -> ~ In x out /\ is_chunk buf cap chunk x) /\
  (forall p', pool_alloc p = (None, p') -> p' = p /\ Z.of_nat (length out) = cap / chunk) /\
  (Z.of_nat (length out) = cap / chunk -> pool_alloc p = (None, p)).
Proof.
  intros H. apply pinv_run in H. destruct H as (B & C & D & E1 & E2 & E3 & fl & E4 & E5).
  assert (ND : NoDup (fl ++ out)) by (eapply Permutation_NoDup; [symmetry; exact E5|apply chunks_NoDup, C]).
  pose proof (Permutation_length E5) as L. unfold chunks in L. rewrite app_length, map_length, seq_length in L.
  assert (Q : 0 <= cap / chunk) by (apply Z.div_pos; lia).
  assert (In' : forall x, In x (fl ++ out) -> is_chunk buf cap chunk x).
  { intros x Hx. apply chunk_in; auto. now apply (Permutation_in _ E5). }
  assert (Lz : Z.of_nat (length fl) + Z.of_nat (length out) = cap / chunk) by lia.
  unfold pool_alloc.
  split; [clear - ND; induction fl; [exact ND|]; inversion ND; auto|].
  split; [apply Forall_forall; intros x Hx; apply In', in_app_iff; now right|]. split; [lia|].
  destruct fl as [|y fl]; cbn in E4.
  - rewrite E4, Z.eqb_refl. split; [discriminate|]. cbn [length] in Lz. split; [|reflexivity]. intros p' [= <-]. split; [reflexivity|lia].
  - destruct E4 as (-> & Y & E4). destruct (Z.eqb_spec y 0); [congruence|]. split; [|split; [discriminate|]].
    + intros x p' [= <- <-]. split; [|apply In'; now left]. inversion ND as [|? ? N1 N2]; subst. rewrite in_app_iff in N1. tauto.
    + intros W. cbn [length] in Lz. lia.
Qed.

(** ** Freeing a whole pool *)
Lemma free_loop_all : forall n i p, let p' := free_loop n i p in
  p_beg p' = p_beg p /\ p_chunk p' = p_chunk p /\
  (n <> O -> p_head p' = p_beg p + (i + Z.of_nat n - 1) * p_chunk p) /\
  (forall x, (forall j, i <= j < i + Z.of_nat n -> x <> p_beg p + j * p_chunk p) -> p_next p' x = p_next p x) /\
  (0 < p_chunk p -> forall j, i <= j < i + Z.of_nat n -> p_next p' (p_beg p + j * p_chunk p) =
     if j =? i then p_head p else p_beg p + (j - 1) * p_chunk p).
Proof.
  induction n as [|n IH]; intros i p; cbn [free_loop].
  - cbn. repeat split; auto; lia.
  - set (x := p_beg p + i * p_chunk p).
    specialize (IH (i + 1) (mkPool (p_beg p) (p_cap p) (p_chunk p) x (set_next (p_next p) x (p_head p)))).
    cbn [p_beg p_cap p_chunk p_head p_next] in IH. destruct IH as (A & B & C & D & E).
    split; [exact A|]. split; [exact B|]. split; [|split].
    + intros _. destruct n as [|n]; [cbn [free_loop p_head]; unfold x; lia|]. rewrite C by lia. f_equal. f_equal. lia.
    + intros y Hy. rewrite D.
      * unfold set_next. destruct (Z.eqb_spec y x) as [->|]; [|reflexivity]. exfalso. apply (Hy i); [lia|reflexivity].
      * intros j Hj. apply Hy. lia.
    + intros Ck j Hj. destruct (Z.eqb_spec j i) as [->|Ne].
      * rewrite D; [fold x; unfold set_next; now rewrite Z.eqb_refl|]. intros k Hk Q. nia.
      * rewrite E by lia. destruct (Z.eqb_spec j (i + 1)) as [->|]; [unfold x; f_equal; f_equal; lia|reflexivity].
Qed.

Lemma free_used buf cap chunk p out : pool_run buf cap chunk p out ->
  fst (pool_alloc p) <> None -> forall n, ~ In None (pool_allocs n (free_pool p)).
Proof.
  intros H Hn. apply pinv_run in H. destruct H as (B & C & D & E1 & E2 & E3 & fl & E4 & E5).
  set (N := Z.to_nat (cap / chunk)) in *.
  assert (Hd : exists j, 0 <= j < Z.of_nat N /\ p_head p = buf + j * chunk).
  { unfold pool_alloc in Hn. destruct fl as [|y fl]; cbn in E4; [rewrite E4 in Hn; cbn in Hn; congruence|].
    destruct E4 as (-> & _ & _).
    assert (Hy : In y (chunks buf chunk N)) by (apply (Permutation_in _ E5); now left).
    apply in_map_iff in Hy. destruct Hy as (i & <- & Hi). apply in_seq in Hi. exists (Z.of_nat i). split; [lia|reflexivity]. }
  assert (Q : exists p1, free_pool p = p1 /\ (exists j, 0 <= j < Z.of_nat N /\ p_head p1 = buf + j * chunk) /\
    forall j, 0 <= j < Z.of_nat N -> exists j', 0 <= j' < Z.of_nat N /\ p_next p1 (buf + j * chunk) = buf + j' * chunk).
  { eexists. split; [reflexivity|]. unfold free_pool. rewrite E2, E3.
    rewrite Z.quot_div_nonneg by lia. fold N.
    destruct (free_loop_all N 0 p) as (F1 & F2 & F3 & F4 & F5). rewrite E1, E3 in *. split.
    - destruct Hd as (j & Hj & _). exists (Z.of_nat N - 1). split; [lia|]. rewrite F3 by lia. f_equal.
    - intros j Hj. rewrite F5 by lia. destruct (j =? 0) eqn:J.
      + destruct Hd as (j' & Hj' & ->). eauto.
      + exists (j - 1). split; [lia|reflexivity]. }
  destruct Q as (p1 & -> & Hh & Hx). clear - B C Hh Hx. intros n. revert p1 Hh Hx.
  induction n as [|n IH]; intros p1 (j & Hj & Hh) Hx; cbn [pool_allocs]; [now intros []|].
  unfold pool_alloc. destruct (Z.eqb_spec (p_head p1) 0) as [W|_]; [nia|]. intros [I|I]; [discriminate|].
  revert I. apply IH; cbn [p_head p_next]; [|exact Hx]. rewrite Hh. apply Hx, Hj.
Qed.

Lemma free_empty buf cap chunk p out : pool_run buf cap chunk p out ->
  fst (pool_alloc p) = None -> pool_run buf cap chunk (free_pool p) [].
Proof.
  intros H Hn. pose proof (pinv_run _ _ _ _ _ H) as (B & C & D & E1 & E2 & E3 & _).
  assert (Hh : p_head p = 0). { unfold pool_alloc in Hn. destruct (Z.eqb_spec (p_head p) 0); [assumption|discriminate]. }
  replace (free_pool p) with (create_pool buf cap chunk (p_next p)); [now constructor|].
  unfold create_pool. f_equal. destruct p; cbn in *. congruence.
Qed.

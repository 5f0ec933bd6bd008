(** * Buddy allocator: statements about whole programs. *)
From Coq Require Import List NArith ZArith Arith Bool Lia.
From Verif Require Import Base MemModel MemProofs BuddyModel BuddySpec BuddyProofs.
Import ListNotations.
Local Open Scope Z_scope.

Lemma pow_bounds k : 5 <= k <= 62 -> 32 <= 2 ^ k < 2 ^ 63.
Proof.
  intros K. split; [change 32 with (2 ^ 5); apply Z.pow_le_mono_r; lia|apply Z.pow_lt_mono_r; lia].
Qed.
Lemma create_ok m data k : 0 <= data -> 5 <= k <= 62 ->
  exists m', create_buddies m data (2 ^ k) = Ok (mkBud data (data + 2 ^ k), m') /\
    Inv (mkBud data (data + 2 ^ k)) [] m' [(data, 2 ^ k, true)].
Proof.
  intros D K. pose proof (pow_bounds k K) as B. unfold create_buddies.
  set (a := mkBud data (data + 2 ^ k)).
  assert (Hi : forall p n, data <= p -> p + n <= data + 2 ^ k -> inside a p n = true) by (intros; now apply inside_ok).
  rewrite (set_size_ok a) by (cbn; lia). cbn [bind]. rewrite (set_free_ok a) by (cbn; lia). cbn [bind].
  pose proof (header_new a m data (2 ^ k) true ltac:(cbn; lia) ltac:(cbn; lia) ltac:(lia)) as H. cbn iota in H.
  destruct (get_header a _ _ _ _ H) as (_ & _ & ->). cbn [bind].
  eexists. split; [reflexivity|]. constructor.
  - cbn [seg b_head b_tail]. split; [reflexivity|]. split; [exact H|]. split; [exists k; split; [lia|reflexivity]|reflexivity].
  - constructor.
  - split; [|intros p b []]. intros p s [E|[]]. discriminate.
  - intros p b [].
Qed.

Lemma program_inv m data k ops : 0 <= data -> 5 <= k <= 62 ->
  exists h m' l, buddy_program m data (2 ^ k) ops = Ok (mkBud data (data + 2 ^ k), h, m') /\
    Inv (mkBud data (data + 2 ^ k)) h m' l.
Proof.
  intros D K. pose proof (pow_bounds k K). destruct (create_ok m data k D K) as (m1 & E & HI).
  unfold buddy_program. rewrite E. cbn [bind].
  destruct (bruns_ok (mkBud data (data + 2 ^ k)) ltac:(cbn [b_head b_tail]; lia) ops _ _ _ HI ltac:(cbn [b_head b_tail]; lia))
    as (h & m' & l & E' & HI').
  rewrite E'. cbn [bind]. exists h, m', l. auto.
Qed.
Lemma state_inv m data k ops a h m' : buddy_state m data k ops a h m' ->
  a = mkBud data (data + 2 ^ k) /\ (exists l, Inv a h m' l) /\ 0 <= b_head a /\ b_tail a - b_head a < 2 ^ 63 /\
  b_head a < b_tail a.
Proof.
  intros (D & K & E). destruct (program_inv m data k ops D K) as (h0 & m0 & l & E0 & HI).
  rewrite E in E0. injection E0 as -> -> ->. pose proof (pow_bounds k K). cbn. split; auto. split; eauto. lia.
Qed.

Lemma program_runs m data k ops : 0 <= data -> 5 <= k <= 62 ->
  exists a h m', buddy_program m data (2 ^ k) ops = Ok (a, h, m') /\ b_head a = data /\ b_tail a = data + 2 ^ k.
Proof. intros D K. destruct (program_inv m data k ops D K) as (h & m' & l & E & _). eauto 6. Qed.

Lemma inv_held a h m l : Inv a h m l -> (forall x, In x h -> held_ok a m x) /\ all_apart h.
Proof.
  intros [A B [C1 C2] D]. unfold HDR in *. split.
  - intros [p b] I. destruct (C2 p b I) as (s & I1 & L). destruct (seg_in _ _ _ _ _ _ _ _ A I1) as (G1 & G2 & _ & _ & G5).
    unfold HDR in *. split; [unfold HDR; lia|]. split; [lia|]. split; [|auto].
    replace (p - b_head a) with (p - 16 - b_head a + 1 * 16) by lia. now rewrite Z.mod_add by lia.
  - intros i j [p b] [q c] Ei Ej N. assert (p <> q).
    { intros ->. apply N. apply (NoDup_nth_error (map fst h)); auto.
      - apply nth_error_Some. rewrite nth_error_map, Ei. discriminate.
      - rewrite !nth_error_map, Ei, Ej. reflexivity. }
    destruct (C2 p b (nth_error_In _ _ Ei)) as (s & I1 & L1). destruct (C2 q c (nth_error_In _ _ Ej)) as (t & I2 & L2).
    unfold apart. unfold HDR in *. destruct (seg_disj _ _ _ _ _ _ _ _ _ _ _ A I1 I2) as [E|[E|E]]; [|lia|lia].
    injection E as E _. lia.
Qed.
Lemma program_held m data k ops a h m' : buddy_state m data k ops a h m' ->
  (forall x, In x h -> held_ok a m' x) /\ all_apart h.
Proof. intros S. destruct (state_inv _ _ _ _ _ _ _ S) as (_ & (l & HI) & _). eapply inv_held; eauto. Qed.
Lemma program_layout m data k ops a h m' : buddy_state m data k ops a h m' ->
  exists l, layout a m' l /\ in_use l h.
Proof.
  intros S. destruct (state_inv _ _ _ _ _ _ _ S) as (_ & (l & HI) & _). exists l. split; [|apply HI].
  unfold layout. apply layout_seg. apply HI.
Qed.

(** One more allocation. *)
Lemma program_alloc m data k ops a h m1 size count zero : buddy_state m data k ops a h m1 ->
  0 < size -> 0 <= count -> size * count + HDR < 2 ^ 63 ->
  exists r m2, buddy_alloc a (bfuel a) m1 size count zero = Ok (r, m2) /\
    match r with
    | Some p => length (rd m2 p (Z.to_nat (size * count))) = Z.to_nat (size * count) /\
        (zero = true -> forall i, (0 <= i < size * count) -> m2 (p + i) = 0%N) /\
        (forall x, In x h -> held_ok a m2 x /\ apart x (p, rd m2 p (Z.to_nat (size * count)))) /\
        held_ok a m2 (p, rd m2 p (Z.to_nat (size * count)))
    | None => (forall x, In x h -> held_ok a m2 x) /\
        exists l, layout a m2 l /\ in_use l h /\ forall p s, In (p, s, true) (removelast l) -> s < size * count + HDR
    end.
Proof.
  intros S S1 S2 S3. destruct (state_inv _ _ _ _ _ _ _ S) as (_ & (l & HI) & Lo & Hi & L).
  destruct (alloc_ok a Hi m1 l size count zero (i_seg _ _ _ _ HI) L S1 S2 S3) as (r & m2 & E & R).
  exists r, m2. split; auto. assert (S0 : 0 <= size * count) by (apply Z.mul_nonneg_nonneg; lia). destruct r as [p|].
  - destruct R as (m3 & l1 & x & s & l2 & V & -> & Hs & G & O & Zr).
    assert (HI2 : Inv a (h ++ [(x + 16, rd m2 (x + 16) (Z.to_nat (size * count)))]) m2 (l1 ++ (x, s, false) :: l2)).
    { eapply inv_alloc; eauto; [eapply inv_ev; eauto|]. rewrite Z2Nat.id; auto. }
    split; [apply rd_length|]. split.
    { intros Hz i Hi'. specialize (Zr Hz). unfold rd in Zr.
      assert (Nn : nth_error (map (fun j => m2 (x + 16 + Z.of_nat j)) (seq 0 (Z.to_nat (size * count)))) (Z.to_nat i) = Some 0%N).
      { rewrite Zr. apply nth_error_repeat. lia. }
      rewrite nth_error_map in Nn.
      assert (Sq : nth_error (seq 0 (Z.to_nat (size * count))) (Z.to_nat i) = Some (Z.to_nat i)).
      { rewrite nth_error_nth' with (d := 0%nat) by (rewrite seq_length; lia). f_equal. apply seq_nth. lia. }
      rewrite Sq in Nn. cbn in Nn. injection Nn as Nn. rewrite Z2Nat.id in Nn by lia. exact Nn. }
    destruct (inv_held _ _ _ _ HI2) as [H1 H2]. split.
    + intros y I. split; [apply H1, in_app_iff; auto|].
      apply In_nth_error in I as (i & Ei). pose proof Ei as Ei'.
      assert (i < length h)%nat by (apply nth_error_Some; congruence).
      apply (H2 i (length h)); [now rewrite nth_error_app1|rewrite nth_error_app2, Nat.sub_diag; auto|lia].
    + apply H1, in_app_iff. right. now left.
  - destruct R as (l' & V & Sm & _). pose proof (inv_ev a _ _ _ _ _ HI V) as HI2. split; [apply (inv_held _ _ _ _ HI2)|].
    exists l'. split; [unfold layout; apply layout_seg; apply HI2|]. split; [apply HI2|exact Sm].
Qed.

(** A region that is one free block serves everything that fits. *)
Lemma program_fresh m data k ops a h m1 size count zero p s : buddy_state m data k ops a h m1 ->
  layout a m1 [(p, s, true)] -> 0 < size -> 0 <= count -> size * count + HDR <= s ->
  exists r m2, buddy_alloc a (bfuel a) m1 size count zero = Ok (Some r, m2).
Proof.
  intros S Ly S1 S2 S3. destruct (state_inv _ _ _ _ _ _ _ S) as (_ & _ & Lo & Hi & L).
  assert (Sg : seg a m1 (b_head a) [(p, s, true)] (b_tail a)) by (apply layout_seg; exact Ly).
  pose proof Sg as Sg0. cbn [seg] in Sg0. destruct Sg0 as (-> & _ & _ & Es). unfold HDR in *.
  destruct (alloc_ok a Hi m1 _ size count zero Sg L S1 S2 ltac:(lia)) as (r & m2 & E & R).
  destruct r as [r|]; [eauto|]. destruct R as (_ & _ & _ & R). specialize (R _ _ eq_refl). lia.
Qed.
(** When nothing is held every block is free. *)
Lemma program_all_free m data k ops a m' : buddy_state m data k ops a [] m' ->
  exists l, layout a m' l /\ forall p s f, In (p, s, f) l -> f = true.
Proof.
  intros S. destruct (program_layout _ _ _ _ _ _ _ S) as (l & Ly & [U _]). exists l. split; auto.
  intros p s [] I; auto. destruct (U p s I) as (b & []).
Qed.
(** Requests that do not fit fail. *)
Lemma program_too_large m data k ops a h m1 size count zero : buddy_state m data k ops a h m1 ->
  0 < size -> 0 <= count -> 2 ^ k < size * count + HDR < 2 ^ 63 ->
  exists m2, buddy_alloc a (bfuel a) m1 size count zero = Ok (None, m2) /\ forall x, In x h -> held_ok a m2 x.
Proof.
  intros S S1 S2 S3. destruct (state_inv _ _ _ _ _ _ _ S) as (Ea & _).
  destruct (program_alloc _ _ _ _ _ _ _ size count zero S S1 S2 ltac:(lia)) as (r & m2 & E & R).
  destruct r as [p|]; [|destruct R; eauto]. exfalso.
  destruct R as (Ln & _ & _ & (B1 & B2 & _)). rewrite Ln in B2. rewrite Z2Nat.id in B2 by (apply Z.mul_nonneg_nonneg; lia).
  subst a. cbn in *. unfold HDR in *. lia.
Qed.

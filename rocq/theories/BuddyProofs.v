(** * Buddy allocator: the blocks tile the region, used blocks are not touched. *)
From Coq Require Import List NArith ZArith Arith Bool Lia Permutation.
From Verif Require Import Base MemModel MemProofs BuddyModel BuddySpec.
Import ListNotations.
Local Open Scope Z_scope.

(** ** Little-endian numbers *)
Lemma le_bytes_length n v : length (le_bytes n v) = n.
Proof. revert v. induction n; intros; simpl; auto. Qed.
Lemma le_round n : forall v, (v < 256 ^ N.of_nat n)%N -> le_value (le_bytes n v) = v.
Proof.
  induction n as [|n IH]; intros v H.
  - cbn in *. lia.
  - cbn [le_bytes le_value]. rewrite IH.
    + pose proof (N.div_mod v 256 ltac:(lia)). lia.
    + rewrite Nat2N.inj_succ, N.pow_succ_r' in H. apply N.div_lt_upper_bound; lia.
Qed.

Section Buddy.
  Context (a : buddies).
  Notation lo := (b_head a).
  Notation hi := (b_tail a).
  Context (Hlo : 0 <= lo) (Hhi : hi - lo < 2 ^ 63).

  Lemma inside_ok p n : lo <= p -> p + n <= hi -> inside a p n = true.
  Proof. intros. unfold inside. apply andb_true_intro. split; apply Z.leb_le; lia. Qed.

  Lemma set_size_ok m p v : lo <= p -> p + 8 <= hi ->
    set_size a m p v = Ok (wr m p (le_bytes 8 (Z.to_N v))).
  Proof. intros. unfold set_size. now rewrite inside_ok. Qed.
  Lemma set_free_ok m p f : lo <= p -> p + 9 <= hi ->
    set_free a m p f = Ok (wr m (p + 8) [if f then 1%N else 0%N]).
  Proof. intros. unfold set_free. rewrite inside_ok; auto; lia. Qed.

  Lemma header_bounds m p s f : header a m p s f -> lo <= p /\ p + 9 <= hi.
  Proof.
    intros [H1 H2]. unfold get_size, get_free, inside in *.
    destruct (Z.leb_spec lo p); cbn in H1; [|discriminate].
    destruct (Z.leb_spec lo (p + 8)); cbn in H2; [|discriminate].
    destruct (Z.leb_spec (p + 8 + 1) hi); [|discriminate]. lia.
  Qed.
  Lemma header_ext m m' p s f : header a m p s f -> (forall x, p <= x < p + 9 -> m' x = m x) -> header a m' p s f.
  Proof.
    intros [H1 H2] E. unfold header, get_size, get_free in *. split.
    - rewrite (rd_ext m' m) by (intros; apply E; lia). exact H1.
    - rewrite E by lia. exact H2.
  Qed.
  Lemma header_size m p s f v : header a m p s f -> 0 <= v < 2 ^ 64 ->
    header a (wr m p (le_bytes 8 (Z.to_N v))) p v f.
  Proof.
    intros H V. destruct (header_bounds _ _ _ _ H) as [B1 B2]. destruct H as [H1 H2]. split.
    - unfold get_size. rewrite inside_ok by lia.
      rewrite <- (le_bytes_length 8 (Z.to_N v)) at 2. rewrite rd_wr, le_round.
      + now rewrite Z2N.id by lia.
      + change (256 ^ N.of_nat 8)%N with (Z.to_N (2 ^ 64)). apply Z2N.inj_lt; lia.
    - unfold get_free in *. rewrite inside_ok in * by lia. rewrite wr_out; auto.
      right. rewrite le_bytes_length. lia.
  Qed.
  Lemma header_free m p s f (g : bool) : header a m p s f -> header a (wr m (p + 8) [if g then 1%N else 0%N]) p s g.
  Proof.
    intros H. destruct (header_bounds _ _ _ _ H) as [B1 B2]. destruct H as [H1 H2]. split.
    - unfold get_size in *. rewrite rd_wr_out by lia. exact H1.
    - unfold get_free. rewrite inside_ok by lia. f_equal. unfold wr.
      cbn [length]. destruct (Z.leb_spec (p + 8) (p + 8)); [|lia].
      destruct (Z.ltb_spec (p + 8) (p + 8 + Z.of_nat 1)); [|lia]. cbn [andb].
      replace (Z.to_nat (p + 8 - (p + 8))) with 0%nat by lia. now destruct g.
  Qed.
  Lemma header_new m p v (f : bool) : lo <= p -> p + 9 <= hi -> 0 <= v < 2 ^ 64 ->
    header a (wr (wr m p (le_bytes 8 (Z.to_N v))) (p + 8) [if f then 1%N else 0%N]) p v f.
  Proof.
    intros B1 B2 V. apply header_free with (f := negb (N.eqb (m (p + 8)) 0)).
    split.
    - unfold get_size. rewrite inside_ok by lia.
      rewrite <- (le_bytes_length 8 (Z.to_N v)) at 2. rewrite rd_wr, le_round.
      + now rewrite Z2N.id by lia.
      + change (256 ^ N.of_nat 8)%N with (Z.to_N (2 ^ 64)). apply Z2N.inj_lt; lia.
    - unfold get_free. rewrite inside_ok by lia. rewrite wr_out; auto. right. rewrite le_bytes_length. lia.
  Qed.

  (** ** Block sizes *)
  Lemma bs_min s : block_size s -> 32 <= s.
  Proof. intros (k & K & ->). change 32 with (2 ^ 5). apply Z.pow_le_mono_r; lia. Qed.
  Lemma bs_double s : block_size s -> block_size (2 * s).
  Proof. intros (k & K & ->). exists (k + 1). split; [lia|]. rewrite Z.pow_add_r by lia. lia. Qed.
  Lemma bs_half s : block_size s -> 32 < s -> block_size (s / 2) /\ s = 2 * (s / 2).
  Proof.
    intros (k & K & ->) H. assert (5 < k).
    { destruct (Z.eq_dec k 5) as [->|]; [cbn in H; lia|lia]. }
    replace k with (1 + (k - 1)) by lia. rewrite Z.pow_add_r by lia. change (2 ^ 1) with 2.
    rewrite (Z.mul_comm 2), Z.div_mul by lia. split; [exists (k - 1); lia|lia].
  Qed.
  Lemma bs_mod s : block_size s -> s mod 16 = 0.
  Proof.
    intros (k & K & ->). replace k with (k - 4 + 4) by lia. rewrite Z.pow_add_r by lia. apply Z.mod_mul. lia.
  Qed.

  (** ** Segments of the layout *)
  Fixpoint seg (m : memory) (p : Z) (l : list block) (q : Z) : Prop :=
    match l with
    | [] => p = q
    | (x, s, f) :: l' => x = p /\ header a m p s f /\ block_size s /\ seg m (p + s) l' q
    end.
  Lemma layout_seg m l : forall p, layout_from a m p l <-> seg m p l hi.
  Proof. induction l as [|[[x s] f] l IH]; intros p; cbn; [tauto|]. rewrite IH. tauto. Qed.
  Lemma seg_app m l1 l2 : forall p q, seg m p (l1 ++ l2) q <-> exists r, seg m p l1 r /\ seg m r l2 q.
  Proof.
    induction l1 as [|[[x s] f] l1 IH]; intros p q; cbn.
    - split; [intros H; eauto|intros (r & <- & H); auto].
    - rewrite IH. split.
      + intros (E & H & B & r & H1 & H2). exists r. auto.
      + intros (r & (E & H & B & H1) & H2). eauto 6.
  Qed.
  Lemma seg_len m l : forall p q, seg m p l q -> p + 32 * Z.of_nat (length l) <= q.
  Proof.
    induction l as [|[[x s] f] l IH]; intros p q H; cbn [seg length] in *; [lia|].
    destruct H as (_ & _ & B & H). apply IH in H. apply bs_min in B. lia.
  Qed.
  Lemma seg_in m l x s f : forall p q, seg m p l q -> In (x, s, f) l ->
    p <= x /\ x + s <= q /\ header a m x s f /\ block_size s /\ (x - p) mod 16 = 0.
  Proof.
    induction l as [|[[y t] g] l IH]; intros p q H I; [destruct I|].
    cbn [seg] in H. destruct H as (-> & H & B & Hs). pose proof (seg_len _ _ _ _ Hs). pose proof (bs_min _ B).
    destruct I as [E|I].
    - injection E as <- <- <-. split; [lia|]. split; [lia|]. split; auto. split; auto. now rewrite Z.sub_diag.
    - destruct (IH _ _ Hs I) as (G1 & G2 & G3 & G4 & G5). split; [lia|]. split; [lia|]. split; auto. split; auto.
      apply bs_mod in B. replace (x - p) with (x - (p + t) + t) by lia.
      rewrite Z.add_mod, G5, B by lia. reflexivity.
  Qed.
  Lemma seg_ext m m' l : forall p q, seg m p l q ->
    (forall x s f, In (x, s, f) l -> forall y, x <= y < x + 9 -> m' y = m y) -> seg m' p l q.
  Proof.
    induction l as [|[[x s] f] l IH]; intros p q H E; cbn [seg] in *; auto.
    destruct H as (-> & H & B & Hs). split; auto. split.
    - eapply header_ext; eauto. intros. eapply E; [left; reflexivity|auto].
    - split; auto. apply IH; auto. intros. eapply E; [right; eauto|auto].
  Qed.
  Lemma seg_out m m' l p q : seg m p l q -> (forall y, p <= y < q -> m' y = m y) -> seg m' p l q.
  Proof.
    intros H E. eapply seg_ext; eauto. intros x s f I y Hy.
    destruct (seg_in _ _ _ _ _ _ _ H I) as (H1 & H2 & _ & B & _). apply bs_min in B. apply E. lia.
  Qed.
  (** Two blocks of a layout do not overlap. *)
  Lemma seg_split m l1 x s f l2 p q : seg m p (l1 ++ (x, s, f) :: l2) q ->
    seg m p l1 x /\ header a m x s f /\ block_size s /\ seg m (x + s) l2 q.
  Proof. rewrite seg_app. intros (r & H1 & -> & H2 & B & H3). auto. Qed.
  Lemma seg_disj m l x s f y t g : forall p q, seg m p l q -> In (x, s, f) l -> In (y, t, g) l ->
    (x, s, f) = (y, t, g) \/ x + s <= y \/ y + t <= x.
  Proof.
    intros p q H I1 I2. apply in_split in I1 as (l1 & l2 & ->).
    apply seg_split in H as (H1 & _ & _ & H2). apply in_app_iff in I2 as [I|[I|I]].
    - destruct (seg_in _ _ _ _ _ _ _ H1 I) as (? & ? & _). right. right. lia.
    - left. now symmetry.
    - destruct (seg_in _ _ _ _ _ _ _ H2 I) as (? & ? & _). right. left. lia.
  Qed.

  (** ** Steps that leave the used blocks alone *)
  Definition used (l : list block) := filter (fun b => negb (snd b)) l.
  Lemma used_in l x s : In (x, s, false) (used l) <-> In (x, s, false) l.
  Proof. unfold used. rewrite filter_In. cbn. tauto. Qed.
  Lemma used_app l1 l2 : used (l1 ++ l2) = used l1 ++ used l2.
  Proof. apply filter_app. Qed.
  Record ev (m : memory) (l : list block) (m' : memory) (l' : list block) : Prop := {
    ev_seg : seg m' lo l' hi;
    ev_used : used l' = used l;
    ev_same : forall x s, In (x, s, false) l -> forall y, x <= y < x + s -> m' y = m y }.
  Lemma ev_refl m l : seg m lo l hi -> ev m l m l.
  Proof. intros. constructor; auto. Qed.
  Lemma ev_trans m l m1 l1 m2 l2 : ev m l m1 l1 -> ev m1 l1 m2 l2 -> ev m l m2 l2.
  Proof.
    intros [A1 A2 A3] [B1 B2 B3]. constructor; auto; [congruence|].
    intros x s I y Hy. rewrite (B3 x s); eauto. apply used_in. rewrite A2. now apply used_in.
  Qed.

  Lemma merge_ok m l1 x s l2 : seg m lo (l1 ++ (x, s, true) :: (x + s, s, true) :: l2) hi ->
    exists m', set_size a m x (w64 (2 * s)) = Ok m' /\
      ev m (l1 ++ (x, s, true) :: (x + s, s, true) :: l2) m' (l1 ++ (x, 2 * s, true) :: l2) /\
      (forall y, x + 8 <= y -> m' y = m y).
  Proof.
    intros H. pose proof H as H0. apply seg_split in H as (H1 & H2 & B & H3).
    cbn [seg] in H3. destruct H3 as (_ & H3 & _ & H4).
    pose proof (seg_len _ _ _ _ H1). pose proof (seg_len _ _ _ _ H4). pose proof (bs_min _ B).
    assert (W : w64 (2 * s) = 2 * s) by (apply Z.mod_small; lia). rewrite W.
    eexists. split; [apply set_size_ok; lia|].
    set (m' := wr m x (le_bytes 8 (Z.to_N (2 * s)))).
    assert (O : forall y, y < x \/ x + 8 <= y -> m' y = m y).
    { intros y Hy. unfold m'. apply wr_out. rewrite le_bytes_length. lia. }
    split; [|intros; apply O; lia].
    constructor.
    - apply seg_app. exists x. split; [eapply seg_out; eauto; intros; apply O; lia|].
      cbn [seg]. split; auto. split; [apply header_size with (s := s); auto; lia|].
      split; [now apply bs_double|]. replace (x + 2 * s) with (x + s + s) by lia.
      eapply seg_out; eauto. intros. apply O. lia.
    - rewrite !used_app. reflexivity.
    - intros y t I z Hz. apply O.
      destruct (seg_disj _ _ y t false x s true _ _ H0 I ltac:(apply in_elt)) as [E|[E|E]]; [discriminate|lia|lia].
  Qed.
  Lemma split_ok m l1 x s l2 : seg m lo (l1 ++ (x, s, true) :: l2) hi -> 32 < s ->
    exists m1 m2 m3, set_size a m x (s / 2) = Ok m1 /\ next_buddy a m1 x = Ok (x + s / 2) /\
      set_size a m1 (x + s / 2) (s / 2) = Ok m2 /\ set_free a m2 (x + s / 2) true = Ok m3 /\
      ev m (l1 ++ (x, s, true) :: l2) m3 (l1 ++ (x, s / 2, true) :: (x + s / 2, s / 2, true) :: l2).
  Proof.
    intros H S. pose proof H as H0. apply seg_split in H as (H1 & H2 & B & H4).
    pose proof (seg_len _ _ _ _ H1). pose proof (seg_len _ _ _ _ H4).
    destruct (bs_half _ B S) as [Bh E]. pose proof (bs_min _ Bh). set (h := s / 2) in *.
    set (m1 := wr m x (le_bytes 8 (Z.to_N h))).
    set (m2 := wr m1 (x + h) (le_bytes 8 (Z.to_N h))).
    set (m3 := wr m2 (x + h + 8) [1%N]).
    assert (Hd : header a m1 x h true) by (apply header_size with (s := s); auto; lia).
    assert (O : forall y, y < x \/ x + s <= y -> m3 y = m y).
    { intros y Hy. unfold m3, m2, m1. rewrite !wr_out; auto; rewrite ?le_bytes_length; cbn [length]; lia. }
    exists m1, m2, m3. split; [apply set_size_ok; lia|]. split.
    { unfold next_buddy. destruct Hd as [-> _]. reflexivity. }
    split; [apply set_size_ok; lia|]. split; [apply set_free_ok; lia|]. constructor.
    - apply seg_app. exists x. split; [eapply seg_out; eauto; intros; apply O; lia|].
      cbn [seg]. split; auto. split.
      { eapply header_ext; [exact Hd|]. intros y Hy. unfold m3, m2. rewrite !wr_out; auto; rewrite ?le_bytes_length; cbn [length]; lia. }
      split; auto. split; auto. split.
      { apply (header_new m1 (x + h) h true); lia. }
      split; auto. replace (x + h + h) with (x + s) by lia. eapply seg_out; eauto. intros. apply O. lia.
    - rewrite !used_app. reflexivity.
    - intros y t I z Hz. apply O.
      destruct (seg_disj _ _ y t false x s true _ _ H0 I ltac:(apply in_elt)) as [E'|[E'|E']]; [discriminate|lia|lia].
  Qed.
  Lemma get_header m p s f : header a m p s f ->
    get_size a m p = Ok s /\ get_free a m p = Ok f /\ next_buddy a m p = Ok (p + s).
  Proof. intros [H1 H2]. unfold next_buddy. rewrite H1. auto. Qed.

  Lemma shift1 (l1 : list block) b l2 : l1 ++ b :: l2 = (l1 ++ [b]) ++ l2.
  Proof. now rewrite <- app_assoc. Qed.
  Lemma shift2 (l1 : list block) b c l2 : l1 ++ b :: c :: l2 = (l1 ++ [b; c]) ++ l2.
  Proof. now rewrite <- app_assoc. Qed.
  (** ** [flo_splitBuddy] *)
  Lemma split_buddy_ok fuel : forall m l1 x s l2 size, seg m lo (l1 ++ (x, s, true) :: l2) hi ->
    16 <= size -> size * 2 < 2 ^ 64 -> (Z.to_nat (s / 16) < fuel)%nat ->
    exists r m' l', split_buddy a fuel m x size = Ok (r, m') /\
      ev m (l1 ++ (x, s, true) :: l2) m' l' /\
      (size <= s -> exists x' s', r = Some x' /\ In (x', s', true) l' /\ size <= s') /\
      (s < size -> r = None /\ l' = l1 ++ (x, s, true) :: l2).
  Proof.
    induction fuel as [|fuel IH]; intros m l1 x s l2 size H S1 S2 F; [lia|].
    pose proof (seg_split _ _ _ _ _ _ _ _ H) as (_ & Hh & B & _).
    cbn [split_buddy]. destruct (get_header _ _ _ _ Hh) as (-> & _ & _). cbn [bind].
    unfold w64. rewrite Z.mod_small by lia.
    destruct (Z.ltb_spec (size * 2) s) as [Hs|Hs].
    - destruct (split_ok _ _ _ _ _ H ltac:(lia)) as (m1 & m2 & m3 & E1 & E2 & E3 & E4 & V).
      rewrite E1. cbn [bind]. rewrite E2. cbn [bind]. rewrite E3. cbn [bind]. rewrite E4. cbn [bind].
      destruct (bs_half _ B ltac:(lia)) as [Bh Eh]. pose proof (bs_min _ Bh).
      pose proof (ev_seg _ _ _ _ V) as V1.
      rewrite (shift1 l1 (x, s / 2, true)) in V1, V.
      destruct (IH m3 _ _ _ _ size V1 S1 S2) as (r & m' & l' & E & V' & R1 & R2).
      { assert (s / 2 / 16 + 1 <= s / 16).
        { apply Z.div_le_lower_bound; [lia|]. pose proof (Z.mul_div_le (s / 2) 16). lia. }
        assert (0 <= s / 2 / 16) by (apply Z.div_pos; lia). lia. }
      exists r, m', l'. split; auto. split; [eapply ev_trans; eauto|]. split; [intros _; apply R1; lia|lia].
    - destruct (Z.leb_spec size s) as [Hl|Hl].
      + exists (Some x), m, (l1 ++ (x, s, true) :: l2). split; auto. split; [now apply ev_refl|].
        split; [intros _; exists x, s; auto using in_elt|lia].
      + exists None, m, (l1 ++ (x, s, true) :: l2). split; auto. split; [now apply ev_refl|]. split; [lia|auto].
  Qed.

  (** ** The scans *)
  (** [block] and [buddy] point to the first two blocks of [l]. *)
  Definition at_ (l : list block) (block buddy : Z) : Prop :=
    match l with
    | [] => block = hi
    | [(x, s, f)] => block = x /\ buddy = hi
    | (x, s, f) :: (y, _, _) :: _ => block = x /\ buddy = y
    end.
  Lemma advance m l p old : seg m p l hi ->
    exists b, (if p <? hi then next_buddy a m p else Ok old) = Ok b /\ at_ l p b.
  Proof.
    intros H. destruct l as [|[[x s] f] l].
    - cbn in H. subst p. rewrite Z.ltb_irrefl. exists old. split; reflexivity.
    - cbn [seg] in H. destruct H as (-> & H & B & Hs). pose proof (seg_len _ _ _ _ Hs). pose proof (bs_min _ B).
      destruct (Z.ltb_spec p hi); [|lia]. destruct (get_header _ _ _ _ H) as (_ & _ & ->).
      exists (p + s). split; auto. destruct l as [|[[y t] g] l]; cbn in *; intuition congruence.
  Qed.
  Lemma at_next x s f l block buddy m : seg m x ((x, s, f) :: l) hi -> at_ ((x, s, f) :: l) block buddy ->
    block = x /\ buddy = x + s.
  Proof.
    intros H A. cbn [seg] in H. destruct H as (_ & _ & _ & H). destruct l as [|[[y t] g] l]; cbn in *; intuition congruence.
  Qed.
  (** The best block so far is a free block that is large enough. *)
  Definition best_ok (size : Z) (l : list block) (best : option Z) : Prop :=
    match best with None => True | Some b => exists s, In (b, s, true) l /\ size <= s end.
  Definition small (size : Z) (l : list block) : Prop := forall x s, In (x, s, true) l -> s < size.
  Lemma small_app size l1 l2 : small size l1 -> small size l2 -> small size (l1 ++ l2).
  Proof. intros H1 H2 x s I. apply in_app_iff in I as [I|I]; eauto. Qed.
  Lemma better_ok m l size best s le : seg m lo l hi -> best_ok size l best ->
    exists c, better a m s best le = Ok c /\ (best = None -> c = true).
  Proof.
    intros H B. destruct best as [b|]; cbn.
    - destruct B as (t & I & _). destruct (seg_in _ _ _ _ _ _ _ H I) as (_ & _ & Hh & _).
      destruct (get_header _ _ _ _ Hh) as (-> & _). cbn. eexists. split; [reflexivity|discriminate].
    - eauto.
  Qed.
  Lemma candidate_ok m l size best x s f : seg m lo l hi -> best_ok size l best -> In (x, s, f) l ->
    exists c, candidate a m size x best = Ok c /\ best_ok size l (if c then Some x else best) /\
      ((if c then Some x else best) = None -> f = true -> s < size).
  Proof.
    intros H B I. destruct (seg_in _ _ _ _ _ _ _ H I) as (_ & _ & Hh & _).
    destruct (get_header _ _ _ _ Hh) as (E1 & E2 & _). unfold candidate. rewrite E2. cbn [bind]. rewrite E1. cbn [bind].
    destruct (better_ok m l size best s false H B) as (c & -> & C). cbn [bind].
    exists (f && (size <=? s) && c). split; auto. destruct f; cbn [andb].
    - destruct (Z.leb_spec size s); cbn [andb].
      + destruct c; [split; [exists s; auto|discriminate]|]. split; auto. intros E. specialize (C E). discriminate.
      + split; auto.
    - split; auto. discriminate.
  Qed.

  Lemma best_mono size l l' best : best_ok size l best -> (forall b s, In (b, s, true) l -> size <= s ->
     exists s', In (b, s', true) l' /\ size <= s') -> best_ok size l' best.
  Proof. intros B H. destruct best as [b|]; cbn in *; auto. destruct B as (s & I & S). eauto. Qed.
  Lemma best_in size l l' best : best_ok size l best -> (forall b, In b l -> In b l') -> best_ok size l' best.
  Proof. intros B H. eapply best_mono; eauto. Qed.

  Lemma find_loop_ok fuel : forall m l1 l2 size best block buddy,
    seg m lo (l1 ++ l2) hi -> at_ l2 block buddy -> (length l2 < fuel)%nat ->
    best_ok size (l1 ++ firstn 1 l2) best -> (best = None -> small size l1) ->
    exists best' m' l', find_loop a fuel m size best block buddy = Ok (best', m') /\
      ev m (l1 ++ l2) m' l' /\ best_ok size l' best' /\ (best' = None -> small size (removelast l')).
  Proof.
    induction fuel as [|fuel IH]; intros m l1 l2 size best block buddy H A F B K; [lia|].
    pose proof H as H'. apply seg_app in H' as (p & H1 & H2).
    assert (Done : (block <? hi) && (buddy <? hi) = false -> (length l2 <= 1)%nat ->
      exists best' m' l', find_loop a (S fuel) m size best block buddy = Ok (best', m') /\
      ev m (l1 ++ l2) m' l' /\ best_ok size l' best' /\ (best' = None -> small size (removelast l'))).
    { intros C L. cbn [find_loop]. rewrite C. exists best, m, (l1 ++ l2). split; auto. split; [now apply ev_refl|].
      split.
      { eapply best_in; eauto. intros b. rewrite !in_app_iff. intros [I|I]; auto. right. destruct l2; cbn in *; tauto. }
      intros N. specialize (K N). destruct l2 as [|b [|c l2]]; cbn in L; [| |lia].
      - rewrite app_nil_r. intros x s I. apply (K x s). destruct l1 as [|b l1]; [destruct I|].
        rewrite (app_removelast_last b) by discriminate. apply in_app_iff. now left.
      - now rewrite removelast_last. }
    destruct l2 as [|[[x s] f] [|[[y t] g] l2]].
    - cbn in A. subst block. apply Done; [|cbn; lia]. now rewrite Z.ltb_irrefl.
    - cbn in A. destruct A as [-> ->]. apply Done; [|cbn; lia]. rewrite Z.ltb_irrefl. apply andb_false_r.
    - clear Done. cbn in A. destruct A as [-> ->]. cbn [seg] in H2. destruct H2 as (-> & Hx & Bx & -> & Hy & By & H2).
      pose proof (seg_len _ _ _ _ H2). pose proof (bs_min _ Bx). pose proof (bs_min _ By).
      destruct (get_header _ _ _ _ Hx) as (Ex1 & Ex2 & Ex3). destruct (get_header _ _ _ _ Hy) as (Ey1 & Ey2 & Ey3).
      cbn [find_loop]. destruct (Z.ltb_spec p hi); [|lia]. destruct (Z.ltb_spec (p + s) hi); [|lia]. cbn [andb].
      rewrite Ex2. cbn [bind]. rewrite Ey2. cbn [bind]. rewrite Ex1. cbn [bind]. rewrite Ey1. cbn [bind].
      cbn [length] in F. cbn [firstn] in B.
      destruct (f && g && (s =? t)) eqn:M.
      + apply andb_true_iff in M as [M Est]. apply andb_true_iff in M as [-> ->]. apply Z.eqb_eq in Est. subst t.
        destruct (merge_ok _ _ _ _ _ H) as (m1 & E & V & O). rewrite E. cbn [bind].
        pose proof (ev_seg _ _ _ _ V) as V1.
        assert (W : w64 (2 * s) = 2 * s) by (apply Z.mod_small; pose proof (seg_len _ _ _ _ H1); lia). rewrite W in *.
        assert (Bo : best_ok size (l1 ++ [(p, 2 * s, true)]) best).
        { eapply best_mono; eauto. intros b u I U. apply in_app_iff in I as [I|[I|[]]].
          - exists u. split; auto. apply in_app_iff. now left.
          - injection I as -> ->. exists (2 * u). split; [apply in_app_iff; right; now left|lia]. }
        destruct (better_ok m1 _ size best (2 * s) true V1) as (c & Ec & Kc).
        { eapply best_in; eauto. intros b. rewrite !in_app_iff. cbn. tauto. }
        rewrite Ec. cbn [bind].
        assert (Ey3' : next_buddy a m1 (p + s) = Ok (p + s + s)).
        { assert (Hy' : header a m1 (p + s) s true) by (eapply header_ext; [exact Hy|]; intros; apply O; lia).
          now destruct (get_header _ _ _ _ Hy') as (_ & _ & ->). }
        rewrite Ey3'. cbn [bind].
        assert (Q : seg m1 (p + s + s) l2 hi).
        { replace (p + s + s) with (p + 2 * s) by lia. now apply seg_split in V1. }
        destruct (advance m1 l2 (p + s + s) (p + s) Q) as (b & Eb & Ab). rewrite Eb. cbn [bind].
        rewrite (shift1 l1 (p, 2 * s, true) l2) in V1, V.
        destruct (IH m1 _ l2 size (if (size <=? 2 * s) && c then Some p else best) _ b V1 Ab ltac:(lia))
          as (best' & m' & l' & R1 & R2 & R3 & R4).
        { destruct (Z.leb_spec size (2 * s)); cbn [andb]; [destruct c|].
          - exists (2 * s). split; [|auto]. rewrite !in_app_iff. left. right. now left.
          - eapply best_in; eauto. intros d. rewrite !in_app_iff. tauto.
          - eapply best_in; eauto. intros d. rewrite !in_app_iff. tauto. }
        { intros N. apply small_app.
          - destruct ((size <=? 2 * s) && c); [discriminate|auto].
          - destruct (Z.leb_spec size (2 * s)); cbn [andb] in N.
            + destruct c; [discriminate|]. specialize (Kc N). discriminate.
            + intros z u [I|[]]. injection I as <- <-. auto. }
        exists best', m', l'. split; auto. split; auto. eapply ev_trans; eauto.
      + destruct (candidate_ok m (l1 ++ (p, s, f) :: (p + s, t, g) :: l2) size best p s f H) as (c & Ec & Bc & Kc).
        { eapply best_in; eauto. intros d. rewrite !in_app_iff. cbn. tauto. } { apply in_elt. }
        rewrite Ec. cbn [bind].
        assert (Bc' : best_ok size (l1 ++ [(p, s, f)]) (if c then Some p else best)).
        { destruct c; [|exact B]. destruct Bc as (u & I & U). exists u. split; auto.
          replace (p, u, true) with (p, s, f); [apply in_app_iff; right; now left|].
          destruct (seg_disj _ _ p u true p s f _ _ H I ltac:(apply in_elt)) as [D|[D|D]]; auto.
          - apply (seg_in _ _ _ _ _ _ _ H) in I as (_ & _ & _ & I & _). apply bs_min in I. lia.
          - lia. }
        set (best1 := if c then Some p else best) in *.
        destruct (candidate_ok m (l1 ++ (p, s, f) :: (p + s, t, g) :: l2) size best1 (p + s) t g H) as (c2 & Ec2 & Bc2 & Kc2).
        { exact Bc. } { apply in_app_iff. right. right. now left. }
        rewrite Ec2. cbn [bind]. set (best2 := if c2 then Some (p + s) else best1) in *.
        assert (Bc2' : best_ok size (l1 ++ [(p, s, f); (p + s, t, g)]) best2).
        { unfold best2 in *. destruct c2; [|eapply best_in; [exact Bc'|]; intros d; rewrite !in_app_iff; cbn; tauto].
          destruct Bc2 as (u & I & U). exists u. split; auto.
          replace (p + s, u, true) with (p + s, t, g); [apply in_app_iff; right; right; now left|].
          destruct (seg_disj _ _ (p + s) u true (p + s) t g _ _ H I ltac:(apply in_app_iff; right; right; now left)) as [D|[D|D]]; auto.
          - apply (seg_in _ _ _ _ _ _ _ H) in I as (_ & _ & _ & I & _). apply bs_min in I. lia.
          - lia. }
        assert (N1 : best2 = None -> best1 = None) by (unfold best2; destruct c2; [discriminate|auto]).
        assert (N0 : best1 = None -> best = None) by (unfold best1; destruct c; [discriminate|auto]).
        assert (Sx : best2 = None -> small size (l1 ++ [(p, s, f)])).
        { intros N. apply small_app; [auto|]. intros z u [I|[]]. injection I as <- <- ->. auto. }
        destruct (Z.ltb_spec s t).
        * rewrite Ey3. cbn [bind]. destruct (advance m l2 (p + s + t) (p + s) H2) as (b & Eb & Ab). rewrite Eb. cbn [bind].
          rewrite (shift2 l1 (p, s, f) (p + s, t, g) l2) in *.
          apply (IH m _ l2); auto; try lia.
          { eapply best_in; [exact Bc2'|]. intros d. rewrite !in_app_iff. tauto. }
          { intros N. rewrite (shift1 l1 (p, s, f) [(p + s, t, g)]).
            apply small_app; [auto|]. intros z u [I|[]]. injection I as <- <- ->. auto. }
        * rewrite Ey3. cbn [bind].
          rewrite (shift1 l1 (p, s, f) ((p + s, t, g) :: l2)) in *.
          apply (IH m _ ((p + s, t, g) :: l2)); auto.
          { destruct l2 as [|[[z u] h] l2]; cbn in H2 |- *; intuition congruence. }
          { cbn [length]. lia. }
          { cbn [firstn]. rewrite <- app_assoc. exact Bc2'. }
  Qed.

  (** ** [flo_findBestBuddy] *)
  Lemma layout_len m l : seg m lo l hi -> (length l < bfuel a)%nat.
  Proof.
    intros H. apply seg_len in H. unfold bfuel. assert (Z.of_nat (length l) <= (hi - lo) / 16); [|lia].
    apply Z.div_le_lower_bound; lia.
  Qed.
  Lemma size_fuel m l x s f : seg m lo l hi -> In (x, s, f) l -> (Z.to_nat (s / 16) < bfuel a)%nat.
  Proof.
    intros H I. destruct (seg_in _ _ _ _ _ _ _ H I) as (? & ? & _ & B & _). apply bs_min in B.
    unfold bfuel. assert (s / 16 <= (hi - lo) / 16) by (apply Z.div_le_mono; lia). lia.
  Qed.
  Lemma find_best_ok m l size : seg m lo l hi -> lo < hi -> 16 <= size -> size * 2 < 2 ^ 64 ->
    exists r m' l', find_best a (bfuel a) m size = Ok (r, m') /\ ev m l m' l' /\
      match r with
      | Some x => exists s, In (x, s, true) l' /\ size <= s
      | None => small size (removelast l') /\ (forall x s, l = [(x, s, true)] -> s < size)
      end.
  Proof.
    intros H L S1 S2. destruct l as [|[[x s] f] l]; [cbn in H; lia|].
    pose proof H as H'. cbn [seg] in H'. destruct H' as (-> & Hh & B & Hs).
    destruct (get_header _ _ _ _ Hh) as (E1 & E2 & E3).
    unfold find_best. rewrite E3. cbn [bind]. rewrite E2. cbn [bind].
    pose proof (bs_min _ B). pose proof (seg_len _ _ _ _ Hs).
    destruct ((lo + s =? hi) && f) eqn:C.
    - apply andb_true_iff in C as [C ->]. apply Z.eqb_eq in C.
      destruct l as [|b l]; [|cbn [length] in *; lia].
      destruct (split_buddy_ok (bfuel a) m [] lo s [] size H S1 S2) as (r & m' & l' & E & V & R1 & R2).
      { eapply size_fuel; [exact H|now left]. }
      cbn [app] in *. exists r, m', l'. split; auto. split; auto.
      destruct (Z_le_gt_dec size s) as [Hl|Hl].
      + destruct (R1 Hl) as (x' & s' & -> & I & Hs'). eauto.
      + destruct (R2 ltac:(lia)) as [-> ->]. split; [intros z u []|].
        intros z u Eq. injection Eq as <- <-. lia.
    - destruct (find_loop_ok (bfuel a) m [] ((lo, s, f) :: l) size None lo (lo + s) H) as (best & m1 & l1 & E & V & B1 & B2).
      { destruct l as [|[[y t] g] l]; cbn in Hs |- *; intuition congruence. }
      { now apply (layout_len m). } { exact I. } { intros _ z u []. }
      cbn [app] in V. rewrite E. cbn [bind]. destruct best as [b|].
      + destruct B1 as (u & I & U). apply in_split in I as (l2 & l3 & ->).
        pose proof (ev_seg _ _ _ _ V) as V1.
        destruct (split_buddy_ok (bfuel a) m1 l2 b u l3 size V1 S1 S2) as (r & m' & l' & E' & V' & R1 & R2).
        { eapply size_fuel; [exact V1|apply in_elt]. }
        exists r, m', l'. split; auto. split; [eapply ev_trans; eauto|].
        destruct (R1 U) as (x' & s' & -> & I & Hs'). eauto.
      + exists None, m1, l1. split; auto. split; auto. split; auto.
        intros z u Eq. injection Eq as <- <- -> ->. cbn in Hs. rewrite Hs, Z.eqb_refl in C. discriminate.
  Qed.

  (** ** [flo_coalesceBuddies] *)
  Definition shrinks (l l' : list block) (none none' : bool) : Prop :=
    (length l' <= length l)%nat /\ (none' = none \/ (length l' < length l)%nat).
  Lemma coalesce_pass_ok fuel : forall m l1 l2 none block buddy,
    seg m lo (l1 ++ l2) hi -> at_ l2 block buddy -> (length l2 < fuel)%nat ->
    exists none' m' l', coalesce_pass a fuel m none block buddy = Ok (none', m') /\
      ev m (l1 ++ l2) m' l' /\ shrinks (l1 ++ l2) l' none none'.
  Proof.
    induction fuel as [|fuel IH]; intros m l1 l2 none block buddy H A F; [lia|].
    pose proof H as H'. apply seg_app in H' as (p & H1 & H2).
    assert (Done : (block <? hi) && (buddy <? hi) = false ->
      exists none' m' l', coalesce_pass a (S fuel) m none block buddy = Ok (none', m') /\
      ev m (l1 ++ l2) m' l' /\ shrinks (l1 ++ l2) l' none none').
    { intros C. cbn [coalesce_pass]. rewrite C. exists none, m, (l1 ++ l2). split; auto. split; [now apply ev_refl|].
      split; [lia|now left]. }
    destruct l2 as [|[[x s] f] [|[[y t] g] l2]].
    - cbn in A. subst block. apply Done. now rewrite Z.ltb_irrefl.
    - cbn in A. destruct A as [-> ->]. apply Done. rewrite Z.ltb_irrefl. apply andb_false_r.
    - clear Done. cbn in A. destruct A as [-> ->]. cbn [seg] in H2. destruct H2 as (-> & Hx & Bx & -> & Hy & By & H2).
      pose proof (seg_len _ _ _ _ H2). pose proof (bs_min _ Bx). pose proof (bs_min _ By).
      destruct (get_header _ _ _ _ Hx) as (Ex1 & Ex2 & Ex3). destruct (get_header _ _ _ _ Hy) as (Ey1 & Ey2 & Ey3).
      cbn [coalesce_pass]. destruct (Z.ltb_spec p hi); [|lia]. destruct (Z.ltb_spec (p + s) hi); [|lia]. cbn [andb].
      rewrite Ex1. cbn [bind]. rewrite Ey1. cbn [bind]. cbn [length] in F.
      assert (Skip : exists none' m' l',
        (let* block := next_buddy a m (p + s) in
         let* buddy := if block <? hi then next_buddy a m block else Ok (p + s) in
         coalesce_pass a fuel m none block buddy) = Ok (none', m') /\
         ev m (l1 ++ (p, s, f) :: (p + s, t, g) :: l2) m' l' /\
         shrinks (l1 ++ (p, s, f) :: (p + s, t, g) :: l2) l' none none').
      { rewrite Ey3. cbn [bind]. destruct (advance m l2 (p + s + t) (p + s) H2) as (b & Eb & Ab). rewrite Eb. cbn [bind].
        rewrite (shift2 l1 (p, s, f) (p + s, t, g) l2) in *. apply IH; auto. lia. }
      destruct (Z.ltb_spec s t); [exact Skip|]. destruct (Z.ltb_spec t s).
      + rewrite Ey3. cbn [bind]. rewrite (shift1 l1 (p, s, f) ((p + s, t, g) :: l2)) in *. apply IH; auto.
        * destruct l2 as [|[[z u] h] l2]; cbn in H2 |- *; intuition congruence.
        * cbn [length]. lia.
      + assert (t = s) by lia. subst t. rewrite Ex2. cbn [bind]. rewrite Ey2. cbn [bind].
        destruct (f && g) eqn:M; [|exact Skip]. clear Skip. apply andb_true_iff in M as [-> ->].
        destruct (merge_ok _ _ _ _ _ H) as (m1 & E & V & O). rewrite E. cbn [bind].
        pose proof (ev_seg _ _ _ _ V) as V1. pose proof V1 as V2. apply seg_split in V2 as (_ & Hp & _ & Q).
        destruct (get_header _ _ _ _ Hp) as (_ & _ & ->). cbn [bind].
        destruct (advance m1 l2 (p + 2 * s) (p + s) Q) as (b & Eb & Ab).
        rewrite (shift1 l1 (p, 2 * s, true) l2) in V1, V.
        assert (Len : (length ((l1 ++ [(p, 2 * s, true)]%Z) ++ l2) < length (l1 ++ ((p, s, true) :: (p + s, s, true) :: l2)%Z))%nat)
          by (rewrite !app_length; cbn; lia).
        assert (G : forall none1 b1, at_ l2 (p + 2 * s) b1 -> exists none' m' l',
          coalesce_pass a fuel m1 none1 (p + 2 * s) b1 = Ok (none', m') /\
          ev m (l1 ++ (p, s, true) :: (p + s, s, true) :: l2) m' l' /\
          shrinks (l1 ++ (p, s, true) :: (p + s, s, true) :: l2) l' none none').
        { intros none1 b1 A1. destruct (IH m1 _ l2 none1 _ b1 V1 A1 ltac:(lia)) as (none' & m' & l' & R1 & R2 & R3 & R4).
          exists none', m', l'. split; auto. split; [eapply ev_trans; eauto|]. unfold shrinks. split; [lia|right; lia]. }
        destruct (p + 2 * s <? hi) eqn:Lt.
        * rewrite Eb. cbn [bind]. apply G. exact Ab.
        * injection Eb as <-. apply G. exact Ab.
  Qed.
  Lemma coalesce_ok fuel : forall m l, seg m lo l hi -> lo < hi -> (length l < fuel)%nat ->
    exists m' l', coalesce a fuel m = Ok m' /\ ev m l m' l'.
  Proof.
    induction fuel as [|fuel IH]; intros m l H L F; [lia|].
    cbn [coalesce]. destruct (advance m l lo 0 H) as (b & Eb & Ab).
    destruct (Z.ltb_spec lo hi); [|lia]. rewrite Eb. cbn [bind].
    destruct (coalesce_pass_ok (S fuel) m [] l true lo b H Ab F) as (none & m1 & l1 & E & V & L1 & L2).
    cbn [app] in *. rewrite E. cbn [bind]. destruct none; [eauto|]. destruct L2 as [L2|L2]; [discriminate|].
    destruct (IH m1 l1 (ev_seg _ _ _ _ V) L ltac:(lia)) as (m' & l' & E' & V').
    exists m', l'. split; auto. eapply ev_trans; eauto.
  Qed.

  (** ** Allocation *)
  Lemma toggle m l1 x s f g l2 : seg m lo (l1 ++ (x, s, f) :: l2) hi ->
    exists m', set_free a m x g = Ok m' /\ seg m' lo (l1 ++ (x, s, g) :: l2) hi /\
      (forall y, y < x \/ x + 16 <= y -> m' y = m y).
  Proof.
    intros H. apply seg_split in H as (H1 & H2 & B & H3). destruct (header_bounds _ _ _ _ H2).
    pose proof (bs_min _ B).
    eexists. split; [apply set_free_ok; lia|]. set (m' := wr m (x + 8) [if g then 1%N else 0%N]).
    assert (O : forall y, y < x \/ x + 16 <= y -> m' y = m y) by (intros; apply wr_out; cbn [length]; lia).
    split; auto. apply seg_app. exists x. split; [eapply seg_out; eauto; intros; apply O; lia|].
    cbn [seg]. split; auto. split; [apply header_free with (f := f); auto|]. split; auto.
    eapply seg_out; eauto. intros. apply O. lia.
  Qed.
  Lemma seg_payload m m' l1 x s f l2 : seg m lo (l1 ++ (x, s, f) :: l2) hi ->
    (forall y, y < x + 16 \/ x + s <= y -> m' y = m y) -> seg m' lo (l1 ++ (x, s, f) :: l2) hi.
  Proof.
    intros H O. apply seg_split in H as (H1 & H2 & B & H3). pose proof (bs_min _ B).
    apply seg_app. exists x. split; [eapply seg_out; eauto; intros; apply O; lia|].
    cbn [seg]. split; auto. split; [eapply header_ext; eauto; intros; apply O; lia|]. split; auto.
    eapply seg_out; eauto. intros. apply O. lia.
  Qed.
  Lemma rd_zero m p n : rd (wr m p (repeat 0%N n)) p n = repeat 0%N n.
  Proof. rewrite <- (repeat_length 0%N n) at 2. apply rd_wr. Qed.

  Lemma alloc_ok m l size count zero : seg m lo l hi -> lo < hi -> 0 < size -> 0 <= count ->
    size * count + 16 < 2 ^ 63 ->
    exists r m', buddy_alloc a (bfuel a) m size count zero = Ok (r, m') /\
    match r with
    | Some p => exists m1 l1 x s l2, ev m l m1 (l1 ++ (x, s, true) :: l2) /\ p = x + 16 /\ size * count + 16 <= s /\
        seg m' lo (l1 ++ (x, s, false) :: l2) hi /\ (forall y, y < x \/ x + s <= y -> m' y = m1 y) /\
        (zero = true -> rd m' p (Z.to_nat (size * count)) = repeat 0%N (Z.to_nat (size * count)))
    | None => exists l', ev m l m' l' /\ small (size * count + 16) (removelast l') /\
        (forall x s, l = [(x, s, true)] -> s < size * count + 16)
    end.
  Proof.
    intros H L S1 S2 S3. assert (S0 : 0 <= size * count) by (apply Z.mul_nonneg_nonneg; lia).
    unfold buddy_alloc. destruct (Z.ltb_spec (size * count) (- 2 ^ 63)); [lia|].
    destruct (Z.leb_spec (2 ^ 63) (size * count)); [lia|]. cbn [orb]. unfold HDR.
    assert (W : w64 (size * count) = size * count) by (apply Z.mod_small; lia). rewrite W.
    assert (W2 : w64 (size * count + 16) = size * count + 16) by (apply Z.mod_small; lia). rewrite W2.
    set (n := size * count) in *.
    destruct (find_best_ok m l (n + 16) H L ltac:(lia) ltac:(lia)) as (r & m1 & l1 & E & V & R).
    rewrite E. cbn [bind].
    assert (X : exists r2 m2 l2, (match r with
        | Some b => Ok (Some b, m1)
        | None => let* m := coalesce a (bfuel a) m1 in find_best a (bfuel a) m (n + 16)
        end) = Ok (r2, m2) /\ ev m l m2 l2 /\
        match r2 with
        | Some x => exists s, In (x, s, true) l2 /\ n + 16 <= s
        | None => small (n + 16) (removelast l2) /\ (forall x s, l = [(x, s, true)] -> s < n + 16)
        end).
    { destruct r as [x|].
      - exists (Some x), m1, l1. auto.
      - destruct (coalesce_ok (bfuel a) m1 l1 (ev_seg _ _ _ _ V) L) as (m2 & l2 & E2 & V2).
        { apply (layout_len m1), V. }
        destruct (find_best_ok m2 l2 (n + 16) (ev_seg _ _ _ _ V2) L ltac:(lia) ltac:(lia)) as (r & m3 & l3 & E3 & V3 & R3).
        exists r, m3, l3. rewrite E2. cbn [bind]. split; auto.
        split; [eapply ev_trans; [exact V|]; eapply ev_trans; eauto|]. destruct r; auto. destruct R3. tauto. }
    destruct X as (r2 & m2 & l2 & E2 & V2 & R2). rewrite E2. cbn [bind]. destruct r2 as [x|].
    - destruct R2 as (s & I & Hs). apply in_split in I as (k1 & k2 & ->).
      destruct (toggle m2 k1 x s true false k2 (ev_seg _ _ _ _ V2)) as (m3 & E3 & G3 & O3). rewrite E3. cbn [bind].
      pose proof (seg_split _ _ _ _ _ _ _ _ G3) as (K1 & _ & _ & K2).
      pose proof (seg_len _ _ _ _ K1). pose proof (seg_len _ _ _ _ K2).
      destruct zero.
      + rewrite inside_ok by lia. eexists. eexists. split; [reflexivity|]. cbv iota beta.
        exists m2, k1, x, s, k2.
        assert (O4 : forall y, y < x + 16 \/ x + s <= y -> wr m3 (x + 16) (repeat 0%N (Z.to_nat n)) y = m3 y).
        { intros y Hy. apply wr_out. rewrite repeat_length. lia. }
        split; auto. split; auto. split; auto. split; [eapply seg_payload; eauto|].
        split; [intros y Hy; rewrite O4 by lia; apply O3; lia|]. intros _. apply rd_zero.
      + eexists. eexists. split; [reflexivity|]. cbv iota beta. exists m2, k1, x, s, k2.
        split; auto. split; auto. split; auto. split; auto. split; [intros; apply O3; lia|discriminate].
    - destruct R2 as [R2 R3]. eexists. eexists. split; [reflexivity|]. cbv iota beta. eauto.
  Qed.

  (** ** Freeing *)
  Lemma free_ok m l1 x s l2 : seg m lo (l1 ++ (x, s, false) :: l2) hi ->
    exists m' l', buddy_free a (bfuel a) m (x + 16) = Ok m' /\ seg m' lo l' hi /\
      used l' = used l1 ++ used l2 /\
      (forall y t, In (y, t, false) (l1 ++ l2) -> forall z, y <= z < y + t -> m' z = m z).
  Proof.
    intros H. unfold buddy_free, HDR. replace (x + 16 - 16) with x by lia.
    destruct (toggle m l1 x s false true l2 H) as (m1 & E & G & O). rewrite E. cbn [bind].
    pose proof (seg_split _ _ _ _ _ _ _ _ H) as (K1 & _ & B & K2).
    pose proof (seg_len _ _ _ _ K1). pose proof (seg_len _ _ _ _ K2). pose proof (bs_min _ B).
    destruct (coalesce_ok (bfuel a) m1 _ G ltac:(lia) ltac:(now apply (layout_len m1))) as (m' & l' & E' & V).
    exists m', l'. split; auto. destruct V as [V1 V2 V3]. split; auto. split; [rewrite V2, used_app; reflexivity|].
    intros y t I z Hz. rewrite (V3 y t); auto.
    - apply O. apply in_app_iff in I as [I|I].
      + destruct (seg_in _ _ _ _ _ _ _ K1 I) as (? & ? & _). lia.
      + destruct (seg_in _ _ _ _ _ _ _ K2 I) as (? & ? & _). lia.
    - apply in_app_iff in I as [I|I]; apply in_app_iff; [left|right; right]; auto.
  Qed.

  (** ** Programs *)
  Record Inv (h : held) (m : memory) (l : list block) : Prop := {
    i_seg : seg m lo l hi;
    i_nodup : NoDup (map fst h);
    i_use : in_use l h;
    i_rd : forall p b, In (p, b) h -> rd m p (length b) = b }.

  Lemma held_block h m l p b : Inv h m l -> In (p, b) h ->
    exists s, In (p - HDR, s, false) l /\ Z.of_nat (length b) + HDR <= s.
  Proof. intros [_ _ [_ U] _]. apply U. Qed.
  Lemma nodup_map_in {A B} (f : A -> B) l x y : NoDup (map f l) -> In x l -> In y l -> f x = f y -> x = y.
  Proof.
    induction l as [|z l IH]; intros N Ix Iy E; [destruct Ix|]. cbn in N. inversion N as [|? ? N1 N2]; subst.
    destruct Ix as [->|Ix], Iy as [->|Iy]; auto.
    - exfalso. apply N1. rewrite E. now apply in_map.
    - exfalso. apply N1. rewrite <- E. now apply in_map.
  Qed.
  (** A step that leaves used blocks alone. *)
  Lemma inv_ev h m l m' l' : Inv h m l -> ev m l m' l' -> Inv h m' l'.
  Proof.
    intros HI V. pose proof (ev_used _ _ _ _ V) as Us.
    assert (Eq : forall x s, In (x, s, false) l' <-> In (x, s, false) l) by (intros; rewrite <- used_in, Us; apply used_in).
    destruct HI as [A B [C1 C2] D]. constructor; auto; [apply V| |].
    - split; [intros p s I; apply (C1 p s), Eq; auto|]. intros p b I. destruct (C2 p b I) as (s & I1 & L).
      exists s. split; auto. now apply Eq.
    - intros p b I. rewrite <- (D p b I) at 2. apply rd_ext. intros y Hy.
      destruct (C2 p b I) as (s & I1 & L). unfold HDR in *. apply (ev_same _ _ _ _ V _ _ I1). lia.
  Qed.
  Lemma inv_alloc h m1 m' l1 x s l2 n : Inv h m1 (l1 ++ (x, s, true) :: l2) -> Z.of_nat n + 16 <= s ->
    seg m' lo (l1 ++ (x, s, false) :: l2) hi -> (forall y, y < x \/ x + s <= y -> m' y = m1 y) ->
    Inv (h ++ [(x + 16, rd m' (x + 16) n)]) m' (l1 ++ (x, s, false) :: l2).
  Proof.
    intros [A B [C1 C2] D] L G O. unfold HDR in *.
    assert (NI : forall b, ~ In (x + 16, b) h).
    { intros b I. destruct (C2 _ _ I) as (t & I1 & _). replace (x + 16 - 16) with x in I1 by lia.
      destruct (seg_in _ _ _ _ _ _ _ A I1) as (_ & _ & _ & Bt & _). apply bs_min in Bt.
      pose proof (seg_split _ _ _ _ _ _ _ _ A) as (_ & _ & Bs & _). apply bs_min in Bs.
      destruct (seg_disj _ _ x t false x s true _ _ A I1 ltac:(apply in_elt)) as [E|[E|E]]; [discriminate|lia|lia]. }
    constructor; auto.
    - rewrite map_app. cbn [map fst].
      apply Permutation_NoDup with (l := (x + 16) :: map fst h).
      + apply Permutation_cons_append.
      + constructor; auto. intros I. apply in_map_iff in I as ((p & b) & Ep & I). cbn [fst] in Ep. subst p. eapply NI; eauto.
    - split.
      + intros p t I. apply in_app_iff in I as [I|[I|I]].
        * destruct (C1 p t) as (b & Hb); [apply in_app_iff; now left|]. exists b. apply in_app_iff. now left.
        * injection I as <- <-. eexists. apply in_app_iff. right. left. reflexivity.
        * destruct (C1 p t) as (b & Hb); [apply in_app_iff; right; now right|]. exists b. apply in_app_iff. now left.
      + intros p b I. apply in_app_iff in I as [I|[I|[]]].
        * destruct (C2 p b I) as (t & I1 & Lt). exists t. split; auto. apply in_app_iff in I1 as [I1|[I1|I1]]; [..|].
          -- apply in_app_iff. now left.
          -- discriminate.
          -- apply in_app_iff. right. now right.
        * injection I as <- <-. exists s. unfold HDR. rewrite rd_length. replace (x + 16 - 16) with x by lia.
          split; [apply in_elt|lia].
    - intros p b I. apply in_app_iff in I as [I|[I|[]]].
      + rewrite <- (D p b I) at 2. apply rd_ext. intros y Hy. apply O.
        destruct (C2 p b I) as (t & I1 & Lt).
        destruct (seg_disj _ _ (p - 16) t false x s true _ _ A I1 ltac:(apply in_elt)) as [E|[E|E]]; [discriminate|lia|lia].
      + injection I as <- <-. now rewrite rd_length.
  Qed.
  Lemma inv_free h1 p b h2 m l : Inv (h1 ++ (p, b) :: h2) m l ->
    exists m' l', buddy_free a (bfuel a) m p = Ok m' /\ Inv (h1 ++ h2) m' l'.
  Proof.
    intros HI. destruct (held_block _ _ _ p b HI ltac:(apply in_elt)) as (s & I & Ls). unfold HDR in *.
    apply in_split in I as (l1 & l2 & ->). destruct HI as [A B [C1 C2] D]. unfold HDR in *.
    destruct (free_ok m l1 (p - 16) s l2 A) as (m' & l' & E & G & Us & Sm).
    replace (p - 16 + 16) with p in E by lia. exists m', l'. split; auto.
    assert (Iff : forall x t, In (x, t, false) l' <-> In (x, t, false) (l1 ++ l2)).
    { intros. rewrite <- used_in, Us, <- used_app. apply used_in. }
    rewrite map_app in B. cbn [map fst] in B. pose proof (NoDup_remove_1 _ _ _ B) as B1. pose proof (NoDup_remove_2 _ _ _ B) as B2.
    rewrite <- map_app in B1, B2.
    assert (Keep : forall q c, In (q, c) (h1 ++ h2) -> exists t, In (q - 16, t, false) (l1 ++ l2) /\ Z.of_nat (length c) + 16 <= t).
    { intros q c I. destruct (C2 q c) as (t & I1 & Lt).
      { apply in_app_iff in I as [I|I]; apply in_app_iff; [left|right; right]; auto. }
      exists t. split; auto. apply in_app_iff in I1 as [I1|[I1|I1]]; [apply in_app_iff; auto| |apply in_app_iff; auto].
      exfalso. injection I1 as E1 E2. assert (q = p) by lia. subst q. apply B2.
      change p with (fst (p, c)). now apply in_map. }
    constructor; auto.
    - split.
      + intros x t I. apply Iff in I. destruct (C1 x t) as (c & Hc).
        { apply in_app_iff in I as [I|I]; apply in_app_iff; [left|right; right]; auto. }
        exists c. apply in_app_iff in Hc as [Hc|[Hc|Hc]]; [apply in_app_iff; auto| |apply in_app_iff; auto].
        exfalso. injection Hc as Ep _. unfold HDR in *.
        pose proof (seg_split _ _ _ _ _ _ _ _ A) as (K1 & _ & Bs & K2). apply bs_min in Bs.
        apply in_app_iff in I as [I|I].
        * destruct (seg_in _ _ _ _ _ _ _ K1 I) as (? & ? & _ & Bt & _). apply bs_min in Bt. lia.
        * destruct (seg_in _ _ _ _ _ _ _ K2 I) as (? & ? & _ & Bt & _). apply bs_min in Bt. lia.
      + intros q c I. destruct (Keep q c I) as (t & I1 & Lt). exists t. split; auto. now apply Iff.
    - intros q c I. rewrite <- (D q c) at 2.
      + apply rd_ext. intros y Hy. destruct (Keep q c I) as (t & I1 & Lt). apply (Sm _ _ I1). lia.
      + apply in_app_iff in I as [I|I]; apply in_app_iff; [left|right; right]; auto.
  Qed.
  Lemma splice_length b off data : (off + length data <= length b)%nat -> length (splice b off data) = length b.
  Proof. intros H. unfold splice. rewrite !app_length, firstn_length, skipn_length. lia. Qed.
  Lemma rd_splice m p b off data : rd m p (length b) = b -> (off + length data <= length b)%nat ->
    rd (wr m (p + Z.of_nat off) data) p (length b) = splice b off data.
  Proof.
    intros R L. unfold splice.
    replace (length b) with (off + (length data + (length b - off - length data)))%nat at 1 by lia.
    rewrite !rd_app. f_equal; [|f_equal].
    - rewrite rd_wr_out by lia. rewrite <- R at 1.
      replace (length b) with (off + (length b - off))%nat by lia. rewrite rd_app, firstn_app, rd_length.
      rewrite firstn_all2 by (rewrite rd_length; lia). rewrite Nat.sub_diag. cbn. now rewrite app_nil_r.
    - apply rd_wr.
    - rewrite rd_wr_out by lia. rewrite <- R at 2.
      replace (length b) with ((off + length data) + (length b - off - length data))%nat at 2 by lia.
      rewrite rd_app, skipn_app, rd_length. rewrite skipn_all2 by (rewrite rd_length; lia). rewrite Nat.sub_diag. cbn [app skipn].
      f_equal. lia.
  Qed.
  Lemma inv_store h1 p b h2 m l off data : Inv (h1 ++ (p, b) :: h2) m l -> (off + length data <= length b)%nat ->
    Inv (h1 ++ (p, splice b off data) :: h2) (wr m (p + Z.of_nat off) data) l.
  Proof.
    intros HI L. destruct (held_block _ _ _ p b HI ltac:(apply in_elt)) as (s & I & Ls). unfold HDR in *.
    destruct HI as [A B [C1 C2] D]. unfold HDR in *.
    assert (O : forall y, y < p - 16 + 16 \/ p - 16 + s <= y -> wr m (p + Z.of_nat off) data y = m y).
    { intros. apply wr_out. lia. }
    assert (Mem : forall q c, In (q, c) (h1 ++ (p, splice b off data) :: h2) ->
       (q = p /\ c = splice b off data) \/ (q <> p /\ In (q, c) (h1 ++ (p, b) :: h2))).
    { intros q c Iq. rewrite map_app in B. cbn [map fst] in B. pose proof (NoDup_remove_2 _ _ _ B) as B2. rewrite <- map_app in B2.
      assert (X : In (q, c) (h1 ++ h2) -> q <> p).
      { intros J ->. apply B2. change p with (fst (p, c)). now apply in_map. }
      apply in_app_iff in Iq as [J|[J|J]].
      - right. split; [apply X, in_app_iff; auto|apply in_app_iff; auto].
      - left. injection J as <- <-. auto.
      - right. split; [apply X, in_app_iff; auto|apply in_app_iff; right; right; auto]. }
    constructor.
    - apply in_split in I as (l1 & l2 & ->). eapply seg_payload; eauto.
    - rewrite map_app in *. exact B.
    - split.
      + intros x t Ix. destruct (C1 x t Ix) as (c & Hc). apply in_app_iff in Hc as [Hc|[Hc|Hc]].
        * exists c. apply in_app_iff. auto.
        * injection Hc as Ep _. unfold HDR. rewrite <- Ep. eexists. apply in_elt.
        * exists c. apply in_app_iff. right. now right.
      + intros q c Iq. destruct (Mem q c Iq) as [[-> ->]|[Nq Iq']].
        * exists s. rewrite splice_length by auto. auto.
        * apply C2. exact Iq'.
    - intros q c Iq. destruct (Mem q c Iq) as [[-> ->]|[Nq Iq']].
      + rewrite splice_length by auto. apply rd_splice; auto. apply D, in_elt.
      + rewrite <- (D q c Iq') at 2. apply rd_ext. intros y Hy. apply O.
        destruct (C2 q c Iq') as (t & I1 & Lt). unfold HDR in *.
        destruct (seg_disj _ _ (q - 16) t false (p - 16) s false _ _ A I1 I) as [E|[E|E]]; [|lia|lia].
        injection E as E _. lia.
  Qed.

  Lemma nth_split_at {A} (l : list A) k x : nth_error l k = Some x -> l = firstn k l ++ x :: skipn (S k) l.
  Proof. revert k. induction l as [|y l IH]; intros [|k] E; cbn in E; try discriminate; cbn; [congruence|]. f_equal. now apply IH. Qed.

  Lemma brun_ok o h m l : Inv h m l -> lo < hi ->
    exists h' m' l', brun a o h m = Ok (h', m') /\ Inv h' m' l'.
  Proof.
    intros HI L. destruct o as [size count zero|k|k off data]; cbn [brun].
    - destruct (good_total size count) eqn:G; [|eauto].
      unfold good_total in G. apply andb_true_iff in G as [G G3]. apply andb_true_iff in G as [G1 G2].
      apply Z.ltb_lt in G1, G3. apply Z.leb_le in G2. unfold HDR in G3.
      destruct (alloc_ok m l size count zero (i_seg _ _ _ HI) L G1 G2 G3) as (r & m' & E & R).
      rewrite E. cbn [bind]. destruct r as [p|].
      + destruct R as (m1 & l1 & x & s & l2 & V & -> & Hs & G & O & _).
        do 3 eexists. split; [reflexivity|]. eapply inv_alloc; eauto; [eapply inv_ev; eauto|].
        rewrite Z2Nat.id by (apply Z.mul_nonneg_nonneg; lia). auto.
      + destruct R as (l' & V & _). do 3 eexists. split; [reflexivity|]. eapply inv_ev; eauto.
    - destruct (nth_error h k) as [[p b]|] eqn:E; [|eauto].
      rewrite (nth_split_at _ _ _ E) in HI. destruct (inv_free _ _ _ _ _ _ HI) as (m' & l' & E' & HI').
      rewrite E'. cbn [bind]. eauto.
    - destruct (nth_error h k) as [[p b]|] eqn:E; [|eauto].
      destruct (Nat.leb_spec (off + length data) (length b)); [|eauto].
      rewrite (nth_split_at _ _ _ E) in HI. do 3 eexists. split; [reflexivity|]. eapply inv_store; eauto.
  Qed.
  Lemma bruns_ok ops : forall h m l, Inv h m l -> lo < hi ->
    exists h' m' l', bruns a ops h m = Ok (h', m') /\ Inv h' m' l'.
  Proof.
    induction ops as [|o ops IH]; intros h m l HI L; cbn [bruns]; [eauto|].
    destruct (brun_ok o h m l HI L) as (h1 & m1 & l1 & E & HI1). rewrite E. cbn [bind]. eauto.
  Qed.
End Buddy.

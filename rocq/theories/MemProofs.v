(** * Proofs about arena, arrays and pool. *)
From Coq Require Import List NArith ZArith Arith Bool Lia Znumtheory.
From Verif Require Import Base Lemmas MemModel MemSpec.
Import ListNotations.
Local Open Scope Z_scope.

(** ** Arena *)

Lemma padding_mod beg align : pow2 align -> padding beg align = (- beg) mod align.
Proof.
  intros (k & K & ->). unfold padding.
  replace (2 ^ k - 1) with (Z.ones k) by (rewrite Z.ones_equiv; lia).
  rewrite Z.land_ones by lia.
  symmetry; apply Zmod_div_mod; try (apply Z.pow_pos_nonneg; lia).
  exists (2 ^ (64 - k)). rewrite <- Z.pow_add_r by lia. f_equal. lia.
Qed.
Lemma pow2_pos x : pow2 x -> 0 < x.
Proof. intros (k & K & ->). apply Z.pow_pos_nonneg; lia. Qed.
Lemma pad_bounds beg align : pow2 align -> 0 <= padding beg align < align.
Proof. intros P. rewrite padding_mod by exact P. apply Z.mod_pos_bound, pow2_pos, P. Qed.
Lemma pad_aligned beg align : pow2 align -> (beg + padding beg align) mod align = 0.
Proof.
  intros P. rewrite padding_mod by exact P. pose proof (pow2_pos _ P).
  rewrite Zplus_mod_idemp_r. replace (beg + - beg) with 0 by lia. apply Z.mod_0_l. lia.
Qed.
(** Padding is the smallest possible. *)
Lemma pad_least beg align q : pow2 align -> beg <= q -> q mod align = 0 -> beg + padding beg align <= q.
Proof.
  intros P L M. rewrite padding_mod by exact P. pose proof (pow2_pos _ P) as A.
  assert (E : (- beg) mod align = (q - beg) mod align).
  { replace (q - beg) with (q + - beg) by lia. rewrite Zplus_mod, M. cbn [Z.add]. now rewrite Zmod_mod. }
  rewrite E. pose proof (Z.mod_le (q - beg) align). lia.
Qed.

Lemma alloc_ok size align count a p a' nul : 0 < size -> pow2 align -> 0 < count ->
  alloc nul size align count a = Ok (Some p, a') ->
  a_beg a <= p /\ p mod align = 0 /\ p + size * count = a_beg a' /\ a_beg a' <= a_end a' /\ a_end a' = a_end a.
Proof.
  intros S P C E. unfold alloc in E. pose proof (pad_bounds (a_beg a) align P) as B.
  destruct (Z.ltb_spec (Z.quot (a_end a - a_beg a - padding (a_beg a) align) size) count) as [L|L].
  - destruct nul; discriminate.
  - injection E as <- <-. cbn [a_beg a_end]. split; [lia|]. split; [apply pad_aligned, P|].
    split; [reflexivity|]. split; [|reflexivity].
    set (r := a_end a - a_beg a - padding (a_beg a) align) in *.
    assert (Hr : 0 < r). { destruct (Z.lt_ge_cases 0 r); [assumption|]. pose proof (Z.quot_le_mono r 0 size ltac:(lia) ltac:(lia)) as Q.
      rewrite Z.quot_0_l in Q by lia. lia. }
    pose proof (Z.mul_quot_le r size ltac:(lia) ltac:(lia)). nia.
Qed.

(** ** Memory *)
Lemma rd_length m p n : length (rd m p n) = n.
Proof. unfold rd. now rewrite map_length, seq_length. Qed.
Lemma rd_app m p a b : rd m p (a + b) = rd m p a ++ rd m (p + Z.of_nat a) b.
Proof.
  unfold rd. rewrite seq_app, map_app. f_equal. cbn [Nat.add].
  rewrite <- (Nat.add_0_r a) at 1. generalize 0%nat as o. intros o.
  revert o. induction b as [|b IH]; intros o; [reflexivity|]. cbn [seq map]. f_equal; [f_equal; lia|].
  rewrite <- IH. now rewrite Nat.add_succ_r.
Qed.
Lemma rd_ext m m' p n : (forall a, p <= a < p + Z.of_nat n -> m a = m' a) -> rd m p n = rd m' p n.
Proof.
  intros H. unfold rd. apply map_ext_in. intros j Hj. apply in_seq in Hj. apply H. lia.
Qed.
Lemma wr_out m p data a : a < p \/ p + Z.of_nat (length data) <= a -> wr m p data a = m a.
Proof.
  intros H. unfold wr. destruct (Z.leb_spec p a); destruct (Z.ltb_spec a (p + Z.of_nat (length data))); cbn; auto. lia.
Qed.
Lemma rd_wr_out m p data q n : q + Z.of_nat n <= p \/ p + Z.of_nat (length data) <= q -> rd (wr m p data) q n = rd m q n.
Proof. intros H. apply rd_ext. intros a Ha. apply wr_out. lia. Qed.
Lemma rd_wr m p data : rd (wr m p data) p (length data) = data.
Proof.
  apply nth_ext with (d := 0%N) (d' := 0%N); [apply rd_length|]. intros j Hj. rewrite rd_length in Hj.
  unfold rd. rewrite nth_indep with (d' := wr m p data (p + Z.of_nat 0)) by (now rewrite map_length, seq_length).
  rewrite (map_nth (fun j => wr m p data (p + Z.of_nat j))), seq_nth by exact Hj. cbn [Nat.add].
  unfold wr. destruct (Z.leb_spec p (p + Z.of_nat j)); [|lia].
  destruct (Z.ltb_spec (p + Z.of_nat j) (p + Z.of_nat (length data))); [|lia]. cbn [andb].
  f_equal. lia.
Qed.

(** ** Arrays *)
Definition block (d : darr) : option (Z * Z) :=
  match d_buf d with
  | Some b => Some (b, b + Z.of_nat (d_size d * d_cap d))
  | None => None
  end.
Definition apart (x y : Z * Z) : Prop := snd x <= fst y \/ snd y <= fst x.

Record arr_ok (lo : Z) (s : mem) (d : darr) (xs : list bytes) : Prop := {
  ao_size : (0 < d_size d)%nat;
  ao_align : pow2 (d_align d);
  ao_len : d_len d = length xs;
  ao_elems : Forall (fun x => length x = d_size d) xs;
  ao_buf : match d_buf d with
           | None => d_len d = 0%nat /\ d_cap d = 0%nat
           | Some b => (d_len d <= d_cap d)%nat /\ (0 < d_cap d)%nat /\ b mod d_align d = 0 /\
               lo <= b /\ b + Z.of_nat (d_size d * d_cap d) <= a_beg (m_arena s) /\
               rd (m_cont s) b (d_size d * d_len d) = concat xs
           end }.

Definition apart_all (ds : list darr) : Prop :=
  forall i j d e x y, i <> j -> nth_error ds i = Some d -> nth_error ds j = Some e ->
    block d = Some x -> block e = Some y -> apart x y.

Record ok_all (lo : Z) (s : mem) (ds : list darr) (cs : list (list bytes)) : Prop := {
  oa_len : length ds = length cs;
  oa_arr : forall i d c, nth_error ds i = Some d -> nth_error cs i = Some c -> arr_ok lo s d c;
  oa_apart : apart_all ds;
  oa_lo : lo <= a_beg (m_arena s) }.

(** What an array knows survives a step of the memory that only touches fresh
    addresses or addresses outside its block. *)
Lemma arr_keep lo s s' d xs : arr_ok lo s d xs -> a_beg (m_arena s) <= a_beg (m_arena s') ->
  (forall b, d_buf d = Some b -> forall a, b <= a < b + Z.of_nat (d_size d * d_cap d) -> m_cont s' a = m_cont s a) ->
  arr_ok lo s' d xs.
Proof.
  intros [A B C D E] L K. constructor; auto. destruct (d_buf d) as [b|]; [|exact E].
  destruct E as (E1 & E2 & E3 & E4 & E5 & E6). split; [exact E1|]. split; [exact E2|]. split; [exact E3|]. split; [exact E4|].
  split; [lia|]. rewrite <- E6. apply rd_ext. intros a Ha. apply (K b eq_refl). nia.
Qed.

Lemma alloc1_ok size align count s p s' : 0 < size -> pow2 align -> 0 < count ->
  alloc1 size align count s = Ok (p, s') ->
  a_beg (m_arena s) <= p /\ p mod align = 0 /\ p + size * count = a_beg (m_arena s') /\
  a_beg (m_arena s') <= a_end (m_arena s') /\ a_end (m_arena s') = a_end (m_arena s) /\ m_cont s' = m_cont s.
Proof.
  intros S P C E. unfold alloc1 in E.
  destruct (alloc false size align count (m_arena s)) as [[q a]| | |] eqn:Q; try discriminate. cbn [bind] in E.
  destruct q as [q|]; [|discriminate]. injection E as <- <-. cbn [m_arena m_cont].
  destruct (alloc_ok _ _ _ _ _ _ _ S P C Q) as (H1 & H2 & H3 & H4 & H5). auto 10.
Qed.
Lemma alloc1_safe size align count s : (exists p s', alloc1 size align count s = Ok (p, s')) \/
  alloc1 size align count s = Longjmp ArenaFull.
Proof.
  unfold alloc1, alloc. destruct (_ <? _); cbn [bind]; [now right|left; eauto].
Qed.

Definition safe_m {A} (Q : A -> Prop) (o : outcome A) : Prop :=
  match o with Ok a => Q a | Longjmp ArenaFull => True | _ => False end.
Lemma safe_m_bind {A B} (P : A -> Prop) (Q : B -> Prop) x f :
  safe_m P x -> (forall a, P a -> safe_m Q (f a)) -> safe_m Q (bind x f).
Proof. destruct x as [a| |[]|]; cbn; auto; contradiction. Qed.
Lemma safe_alloc1 size align count s : 0 < size -> pow2 align -> 0 < count ->
  safe_m (fun '(p, s') => a_beg (m_arena s) <= p /\ p mod align = 0 /\ p + size * count = a_beg (m_arena s') /\
    a_beg (m_arena s') <= a_end (m_arena s') /\ a_end (m_arena s') = a_end (m_arena s) /\ m_cont s' = m_cont s)
  (alloc1 size align count s).
Proof.
  intros S P C. destruct (alloc1_safe size align count s) as [(p & s' & E)|E]; rewrite E; cbn; auto.
  exact (alloc1_ok _ _ _ _ _ _ S P C E).
Qed.

Lemma pow2_one : pow2 1.
Proof. exists 0. split; [lia|reflexivity]. Qed.

(** A step on one array: it is still well formed, its block is old or fresh, and
    nothing outside its block and the fresh part of the arena is changed. *)
Record step1 (s : mem) (d : darr) (s' : mem) (d' : darr) : Prop := {
  s1_size : d_size d' = d_size d;
  s1_align : d_align d' = d_align d;
  s1_beg : a_beg (m_arena s) <= a_beg (m_arena s');
  s1_block : forall y, block d' = Some y ->
     (a_beg (m_arena s) <= fst y) \/
     exists x, block d = Some x /\ fst x = fst y /\ (snd y <= snd x \/ snd x = a_beg (m_arena s));
  s1_mem : forall a, a < a_beg (m_arena s) ->
     (forall x, block d = Some x -> ~ (fst x <= a < snd x)) -> m_cont s' a = m_cont s a;
  s1_hi : forall a, a_beg (m_arena s') <= a -> m_cont s' a = m_cont s a;
  s1_end : a_end (m_arena s') = a_end (m_arena s) /\
     (a_beg (m_arena s) <= a_end (m_arena s) -> a_beg (m_arena s') <= a_end (m_arena s')) }.

Lemma concat_len n (xs : list bytes) : Forall (fun x => length x = n) xs -> length (concat xs) = (n * length xs)%nat.
Proof. induction 1 as [|x xs H _ IH]; cbn [concat length]; [lia|]. rewrite app_length. lia. Qed.


Lemma block_some d b : d_buf d = Some b -> block d = Some (b, b + Z.of_nat (d_size d * d_cap d)).
Proof. unfold block. now intros ->. Qed.

Lemma grow_safe lo s d xs : arr_ok lo s d xs -> lo <= a_beg (m_arena s) -> d_cap d = d_len d ->
  safe_m (fun '(d', s') => arr_ok lo s' d' xs /\ step1 s d s' d' /\ (d_len d' < d_cap d')%nat /\ d_len d' = d_len d)
    (grow d s).
Proof.
  intros [A B C D E] L H. unfold grow.
  set (sz := Z.of_nat (d_size d)). assert (Sz : 0 < sz) by (unfold sz; lia).
  destruct (d_buf d) as [b|] eqn:Eb.
  - destruct E as (E1 & E2 & E3 & E4 & E5 & E6).
    destruct (Z.eqb_spec (a_beg (m_arena s)) (b + sz * Z.of_nat (d_cap d))) as [Q|Q].
    + destruct (alloc1_safe sz 1 (Z.of_nat (d_cap d)) s) as [(p & s' & F)|F]; rewrite F; cbn [bind safe_m]; [|exact I].
      apply alloc1_ok in F; [|exact Sz|exact pow2_one|lia].
      destruct F as (F1 & F2 & F3 & F4 & F5 & F6). unfold sz in *.
      split; [|split; [|split; [cbn [d_len d_cap]; lia|reflexivity]]].
      * constructor; cbn [d_size d_align d_buf d_len d_cap]; auto.
        split; [lia|]. split; [lia|]. split; [exact E3|]. split; [exact E4|]. split; [nia|]. now rewrite F6.
      * constructor; cbn [d_size d_align d_buf d_len d_cap]; auto; [nia| |intros a _ _; now rewrite F6|intros a _; now rewrite F6].
        intros y Hy. right. rewrite (block_some _ _ Eb). eexists. split; [reflexivity|].
        cbn [fst snd]. unfold block in Hy; cbn [d_size d_buf d_cap] in Hy. injection Hy as <-. cbn [fst snd].
        split; [reflexivity|]. right. nia.
    + destruct (alloc1_safe (2 * sz) (d_align d) (Z.of_nat (d_cap d)) s) as [(p & s' & F)|F]; rewrite F; cbn [bind safe_m]; [|exact I].
      apply alloc1_ok in F; [|lia|exact B|lia].
      destruct F as (F1 & F2 & F3 & F4 & F5 & F6). unfold sz in *.
      split; [|split; [|split; [cbn [d_len d_cap]; lia|reflexivity]]].
      * constructor; cbn [d_size d_align d_buf d_len d_cap m_arena m_cont]; auto.
        split; [lia|]. split; [lia|]. split; [exact F2|]. split; [lia|]. split; [nia|].
        rewrite F6, E6. rewrite C, <- (concat_len _ _ D). apply rd_wr.
      * constructor; cbn [d_size d_align d_buf d_len d_cap m_arena m_cont]; auto; [nia| | |].
        { intros y Hy. left. unfold block in Hy; cbn [d_size d_buf d_cap] in Hy. injection Hy as <-. cbn [fst]. lia. }
        { intros a Ha _. rewrite wr_out; [now rewrite F6|]. left. lia. }
        { intros a Ha. rewrite wr_out; [now rewrite F6|]. right. rewrite rd_length. nia. }
  - destruct E as (E1 & E2).
    destruct (alloc1_safe (2 * sz) (d_align d) 1 s) as [(p & s' & F)|F]; rewrite F; cbn [bind safe_m]; [|exact I].
    apply alloc1_ok in F; [|lia|exact B|lia].
    destruct F as (F1 & F2 & F3 & F4 & F5 & F6). unfold sz in *.
    split; [|split; [|split; [cbn [d_len d_cap]; lia|reflexivity]]].
    + constructor; cbn [d_size d_align d_buf d_len d_cap]; auto.
      split; [lia|]. split; [lia|]. split; [exact F2|]. split; [lia|]. split; [nia|].
      rewrite E1 in *. symmetry in C. apply length_zero_iff_nil in C. subst xs. now rewrite Nat.mul_0_r.
    + constructor; cbn [d_size d_align d_buf d_len d_cap]; auto; [nia| |intros a _ _; now rewrite F6|intros a _; now rewrite F6].
      intros y Hy. left. unfold block in Hy; cbn [d_size d_buf d_cap] in Hy. injection Hy as <-. cbn [fst]. lia.
Qed.

Lemma step1_refl s d : step1 s d s d.
Proof. constructor; auto; [lia|]. intros y Hy. right. exists y. split; [exact Hy|]. split; [reflexivity|]. left. lia. Qed.

Lemma app_inj_len {A} (a b c d : list A) : length a = length c -> a ++ b = c ++ d -> a = c /\ b = d.
Proof.
  revert c. induction a as [|x a IH]; intros [|y c] L E; try discriminate; [now split|].
  injection L as L. injection E as -> E. destruct (IH _ L E) as [-> ->]. now split.
Qed.
Lemma rd_elem m b sz xs k x : rd m b (sz * length xs) = concat xs -> Forall (fun x => length x = sz) xs ->
  nth_error xs k = Some x -> rd m (b + Z.of_nat (sz * k)) sz = x.
Proof.
  revert b k. induction xs as [|y xs IH]; intros b k R F N; [destruct k; discriminate|].
  inversion F as [|? ? Fy Fx]; subst. cbn [length concat] in R.
  replace (length y * S (length xs))%nat with (length y + length y * length xs)%nat in R by lia. rewrite rd_app in R.
  apply app_inj_len in R; [|now rewrite rd_length]. destruct R as [R1 R2]. destruct k as [|k].
  - injection N as <-. rewrite Nat.mul_0_r. cbn [Z.of_nat]. rewrite Z.add_0_r. congruence.
  - cbn [nth_error] in N. rewrite <- (IH _ _ R2 Fx N). f_equal. lia.
Qed.
Lemma rd_put m b sz xs k x : rd m b (sz * length xs) = concat xs -> Forall (fun x => length x = sz) xs ->
  (k < length xs)%nat -> length x = sz ->
  rd (wr m (b + Z.of_nat (sz * k)) x) b (sz * length xs) = concat (upd xs k x).
Proof.
  revert b k. induction xs as [|y xs IH]; intros b k R F N X; [cbn in N; lia|].
  pose proof (Forall_inv F) as Fy. pose proof (Forall_inv_tail F) as Fx. cbv beta in Fy. cbn [length concat] in *.
  replace (sz * S (length xs))%nat with (sz + sz * length xs)%nat in * by lia. rewrite rd_app in R |- *.
  apply app_inj_len in R; [|now rewrite rd_length, Fy || rewrite rd_length; congruence]. destruct R as [R1 R2]. destruct k as [|k]; cbn [upd concat].
  - rewrite Nat.mul_0_r. cbn [Z.of_nat]. rewrite Z.add_0_r. f_equal.
    + rewrite <- X. apply rd_wr.
    + rewrite rd_wr_out; [exact R2|]. lia.
  - f_equal.
    + rewrite rd_wr_out; [exact R1|]. nia.
    + replace (b + Z.of_nat (sz * S k)) with (b + Z.of_nat sz + Z.of_nat (sz * k)) by lia.
      apply IH; auto. lia.
Qed.
Lemma rd_push m b sz xs x : rd m b (sz * length xs) = concat xs -> Forall (fun x => length x = sz) xs ->
  length x = sz -> rd (wr m (b + Z.of_nat (sz * length xs)) x) b (sz * S (length xs)) = concat (xs ++ [x]).
Proof.
  intros R F X. replace (sz * S (length xs))%nat with (sz * length xs + sz)%nat by lia.
  rewrite rd_app, concat_app. cbn [concat]. rewrite app_nil_r. f_equal.
  - rewrite rd_wr_out; [exact R|]. lia.
  - rewrite <- X at 3. apply rd_wr.
Qed.

Lemma Forall_upd {A} (P : A -> Prop) l i x : Forall P l -> P x -> Forall P (upd l i x).
Proof.
  intros F. revert i. induction F as [|y l Hy F IH]; intros [|i] Px; cbn [upd]; auto.
Qed.

Lemma put_safe lo s d xs k x : arr_ok lo s d xs -> (k < length xs)%nat -> length x = d_size d ->
  exists s', put d k x s = Ok s' /\ arr_ok lo s' d (upd xs k x) /\ step1 s d s' d.
Proof.
  intros [A B C D E] K X. unfold put. destruct (d_buf d) as [b|] eqn:Eb.
  - destruct E as (E1 & E2 & E3 & E4 & E5 & E6).
    destruct (Nat.ltb_spec k (d_cap d)) as [_|N]; [|lia]. eexists. split; [reflexivity|]. split.
    + constructor; auto; [now rewrite upd_length|apply Forall_upd; auto|]. rewrite Eb. cbn [m_arena m_cont].
      repeat (split; [assumption|]). rewrite C in E6 |- *. apply rd_put; auto.
    + constructor; auto; cbn [m_arena m_cont]; [lia| | |].
      * intros y Hy. right. exists y. split; [exact Hy|]. split; [reflexivity|]. left. lia.
      * intros a Ha Hx. apply wr_out. specialize (Hx _ (block_some _ _ Eb)). cbn [fst snd] in Hx. nia.
      * intros a Ha. apply wr_out. nia.
  - lia.
Qed.

Lemma push_safe lo s d xs x : arr_ok lo s d xs -> lo <= a_beg (m_arena s) -> length x = d_size d ->
  safe_m (fun '(d', s') => arr_ok lo s' d' (xs ++ [x]) /\ step1 s d s' d') (push d x s).
Proof.
  intros O L X. unfold push.
  apply safe_m_bind with (P := fun '(d1, s1) => arr_ok lo s1 d1 xs /\ step1 s d s1 d1 /\ (d_len d1 < d_cap d1)%nat /\ d_len d1 = d_len d).
  { destruct (Nat.leb_spec (d_cap d) (d_len d)) as [H|H].
    - apply grow_safe; auto. destruct O as [A B C D E]. destruct (d_buf d); [destruct E; lia|lia].
    - cbn. split; [exact O|]. split; [apply step1_refl|]. auto. }
  intros [d1 s1] (O1 & S1 & Lt & Ln). cbv beta iota. destruct O1 as [A B C D E]. unfold put.
  destruct (d_buf d1) as [b|] eqn:Eb; [|destruct E; lia].
  destruct E as (E1 & E2 & E3 & E4 & E5 & E6).
  destruct (Nat.ltb_spec (d_len d1) (d_cap d1)) as [_|N]; [|lia]. cbn [bind safe_m].
  split.
  - constructor; cbn [d_size d_align d_buf d_len d_cap m_arena m_cont]; auto.
    + rewrite app_length. cbn. lia.
    + apply Forall_app. split; [exact D|]. constructor; [|constructor]. now rewrite (s1_size _ _ _ _ S1).
    + split; [lia|]. repeat (split; [assumption|]). rewrite C in E6 |- *. apply rd_push; auto.
      now rewrite (s1_size _ _ _ _ S1).
  - destruct S1 as [F1 F2 F3 F4 F5 F7 F8].
    constructor; cbn [d_size d_align d_buf d_len d_cap m_arena m_cont]; auto.
    { intros y Hy. apply F4. unfold block in Hy |- *. rewrite Eb. exact Hy. }
    all: assert (W : (d_size d1 * d_len d1 + length x <= d_size d1 * d_cap d1)%nat) by (rewrite X, <- F1; nia).
    2:{ intros a Ha. rewrite wr_out; [now apply F7|]. lia. }
    intros a Ha Hx. rewrite wr_out; [now apply F5|].
    specialize (F4 _ (block_some _ _ Eb)). cbn [fst snd] in F4.
    destruct F4 as [F4|(y & Y1 & Y2 & Y3)]; [lia|]. specialize (Hx _ Y1). lia.
Qed.

Lemma concat_singles (data : bytes) : concat (map (fun b => [b]) data) = data.
Proof. induction data as [|x l IH]; cbn; [reflexivity|]. now rewrite IH. Qed.
Lemma Forall_singles (data : bytes) : Forall (fun x : bytes => length x = 1%nat) (map (fun b => [b]) data).
Proof. induction data; cbn; constructor; auto. Qed.

Lemma add_raw_safe lo s d xs data : arr_ok lo s d xs -> lo <= a_beg (m_arena s) ->
  a_beg (m_arena s) <= a_end (m_arena s) -> d_size d = 1%nat ->
  safe_m (fun '(d', s') => arr_ok lo s' d' (xs ++ map (fun b => [b]) data) /\ step1 s d s' d') (add_raw d data s).
Proof.
  intros O L I Sz. unfold add_raw.
  apply safe_m_bind with (P := fun '(d1, s1) => arr_ok lo s1 d1 xs /\ step1 s d s1 d1 /\
    (d_len d1 + length data <= d_cap d1)%nat /\ d_len d1 = d_len d).
  { destruct (Nat.ltb_spec (d_cap d) (d_len d + length data)) as [H|H].
    2:{ cbn. split; [exact O|]. split; [apply step1_refl|]. auto. }
    destruct O as [A B C D E]. rewrite Sz. change (Z.of_nat 1) with 1.
    destruct (d_buf d) as [b|] eqn:Eb.
    - destruct E as (E1 & E2 & E3 & E4 & E5 & E6). rewrite Sz in E5, E6.
      destruct (Z.eqb_spec (a_end (m_arena s)) (b - Z.of_nat (d_cap d))) as [Q|_]; [lia|].
      destruct (alloc1_safe 1 (d_align d) (Z.of_nat ((d_len d + length data) * 2)) s) as [(p & s' & F)|F]; rewrite F; cbn [bind safe_m]; [|exact Logic.I].
      apply alloc1_ok in F; [|lia|exact B|lia]. destruct F as (F1 & F2 & F3 & F4 & F5 & F6).
      rewrite Nat.mul_1_l in E6.
      split; [|split; [|cbn [d_len d_cap]; split; [lia|reflexivity]]].
      + constructor; cbn [d_size d_align d_buf d_len d_cap m_arena m_cont]; rewrite <- ?Sz; auto; try lia. rewrite Sz.
        split; [lia|]. split; [lia|]. split; [exact F2|]. split; [lia|]. split; [lia|].
        rewrite Nat.mul_1_l, F6, E6, C.
        replace (length xs) with (length (concat xs)) by (rewrite (concat_len _ _ D), Sz; lia). apply rd_wr.
      + constructor; cbn [d_size d_align d_buf d_len d_cap m_arena m_cont]; auto; [lia| | |].
        { intros y Hy. left. unfold block in Hy; cbn [d_size d_buf d_cap] in Hy. injection Hy as <-. cbn [fst]. lia. }
        { intros a Ha _. rewrite wr_out; [now rewrite F6|]. left. lia. }
        { intros a Ha. rewrite wr_out; [now rewrite F6|]. right. rewrite rd_length. lia. }
    - destruct E as (E1 & E2).
      destruct (alloc1_safe 1 (d_align d) (Z.of_nat ((d_len d + length data) * 2)) s) as [(p & s' & F)|F]; rewrite F; cbn [bind safe_m]; [|exact Logic.I].
      apply alloc1_ok in F; [|lia|exact B|lia]. destruct F as (F1 & F2 & F3 & F4 & F5 & F6).
      split; [|split; [|cbn [d_len d_cap]; split; [lia|reflexivity]]].
      + constructor; cbn [d_size d_align d_buf d_len d_cap m_arena m_cont]; rewrite <- ?Sz; auto; try lia. rewrite Sz.
        split; [lia|]. split; [lia|]. split; [exact F2|]. split; [lia|]. split; [lia|].
        rewrite E1 in *. symmetry in C. apply length_zero_iff_nil in C. now subst xs.
      + constructor; cbn [d_size d_align d_buf d_len d_cap m_arena m_cont]; auto; [lia| |intros a _ _; now rewrite F6|intros a _; now rewrite F6].
        intros y Hy. left. unfold block in Hy; cbn [d_size d_buf d_cap] in Hy. injection Hy as <-. cbn [fst]. lia. }
  intros [d1 s1] (O1 & S1 & Le & Ln). cbv beta iota. destruct O1 as [A B C D E].
  pose proof (s1_size _ _ _ _ S1) as Sz1. rewrite Sz in Sz1. rewrite <- Ln.
  destruct (d_buf d1) as [b|] eqn:Eb.
  - destruct E as (E1 & E2 & E3 & E4 & E5 & E6). rewrite Sz1, ?Nat.mul_1_l in E5, E6. rewrite Sz1 in D.
    cbn [bind safe_m]. split.
    + constructor; cbn [d_size d_align d_buf d_len d_cap m_arena m_cont]; auto.
      * rewrite app_length, map_length. lia.
      * rewrite Sz1. apply Forall_app. split; [exact D|apply Forall_singles].
      * split; [lia|]. split; [lia|]. split; [exact E3|]. split; [exact E4|]. split; [rewrite Sz1; lia|].
        rewrite Sz1, Nat.mul_1_l, rd_app, concat_app, concat_singles. f_equal.
        -- rewrite rd_wr_out; [exact E6|]. lia.
        -- apply rd_wr.
    + destruct S1 as [F1 F2 F3 F4 F5 F7 F8].
      constructor; cbn [d_size d_align d_buf d_len d_cap m_arena m_cont]; auto.
      { intros y Hy. apply F4. unfold block in Hy |- *. rewrite Eb. exact Hy. }
      2:{ intros a Ha. rewrite wr_out; [now apply F7|]. lia. }
      intros a Ha Hx. rewrite wr_out; [now apply F5|].
      specialize (F4 _ (block_some _ _ Eb)). cbn [fst snd] in F4. rewrite Sz1, Nat.mul_1_l in F4.
      destruct F4 as [F4|(y & Y1 & Y2 & Y3)]; [lia|]. specialize (Hx _ Y1). lia.
  - destruct E as [E1 E2]. destruct data as [|x data]; [|cbn [length] in Le; lia]. cbn [bind safe_m length map].
    rewrite app_nil_r, Nat.add_0_r. destruct d1 as [z al bf ln cp]. cbn [d_size d_align d_buf d_len d_cap] in *. subst bf.
    split; [|exact S1]. constructor; cbn [d_size d_align d_buf d_len d_cap]; auto.
Qed.

(** Replacing one array by a step keeps the others. *)
Lemma step_all lo s ds cs i d a s' d' a' :
  ok_all lo s ds cs -> nth_error ds i = Some d -> nth_error cs i = Some a ->
  arr_ok lo s' d' a' -> step1 s d s' d' -> ok_all lo s' (upd ds i d') (upd cs i a').
Proof.
  intros [A B C D] Nd Na O S.
  assert (Hi : (i < length ds)%nat) by (apply nth_error_Some; congruence).
  assert (Ox := B _ _ _ Nd Na).
  constructor; [now rewrite !upd_length| | |].
  - intros j e c Hj Hc. destruct (Nat.eq_dec i j) as [<-|Ne].
    + rewrite upd_nth_eq in Hj by exact Hi. rewrite upd_nth_eq in Hc by lia. congruence.
    + rewrite upd_nth_neq in Hj by exact Ne. rewrite upd_nth_neq in Hc by exact Ne. apply (arr_keep lo s); auto; [apply (B j); auto|apply (s1_beg _ _ _ _ S)|].
      intros b Hb q Hq. apply (s1_mem _ _ _ _ S).
      * 
        pose proof (ao_buf _ _ _ _ (B _ _ _ Hj Hc)) as Z. rewrite Hb in Z. lia.
      * intros x Hx Hin. destruct (C i j d e x _ Ne Nd Hj Hx (block_some _ _ Hb)) as [H|H]; cbn [fst snd] in H; lia.
  - intros j k e f x y Ne Hj Hk Hx Hy.
    assert (Main : forall j e y, i <> j -> nth_error ds j = Some e -> block e = Some y ->
       forall x, block d' = Some x -> apart x y).
    { clear - A B C D Nd Na S Ox O. intros j e y Ne Hj Hy x Hx.
      destruct (nth_error cs j) as [c|] eqn:Hc.
      2:{ apply nth_error_None in Hc. assert (j < length ds)%nat by (apply nth_error_Some; congruence). lia. }
      assert (Oe := B _ _ _ Hj Hc). unfold block in Hy. destruct (d_buf e) as [b|] eqn:Eb; [|discriminate].
      pose proof (ao_buf _ _ _ _ Oe) as Z. rewrite Eb in Z. destruct Z as (Z1 & Z2 & Z3 & Z4 & Z5 & Z6).
      pose proof (ao_size _ _ _ _ Oe) as Z7.
      injection Hy as <-. destruct (s1_block _ _ _ _ S _ Hx) as [H|(w & W1 & W2 & W3)].
      - right. cbn [snd]. lia.
      - destruct (C i j d e w _ Ne Nd Hj W1 (block_some _ _ Eb)) as [H|H]; cbn [fst snd] in *.
        + destruct W3 as [W3|W3]; [left; cbn [fst]; lia|]. exfalso. nia.
        + right. cbn [snd]. lia. }
    destruct (Nat.eq_dec i j) as [<-|N1]; destruct (Nat.eq_dec i k) as [<-|N2]; try lia.
    + rewrite upd_nth_eq in Hj by exact Hi. rewrite upd_nth_neq in Hk by exact N2. injection Hj as <-.
      eapply Main; eauto.
    + rewrite upd_nth_eq in Hk by exact Hi. rewrite upd_nth_neq in Hj by exact N1. injection Hk as <-.
      destruct (Main j e x N1 Hj Hx y Hy); [right|left]; assumption.
    + rewrite upd_nth_neq in Hj by assumption. rewrite upd_nth_neq in Hk by assumption. eapply (C j k); eauto.
  - pose proof (s1_beg _ _ _ _ S). lia.
Qed.

(** Adding an array whose block is fresh. *)
Lemma add_all lo s ds cs s' d' a' :
  ok_all lo s ds cs -> arr_ok lo s' d' a' -> a_beg (m_arena s) <= a_beg (m_arena s') ->
  (forall x, block d' = Some x -> a_beg (m_arena s) <= fst x) ->
  (forall a, a < a_beg (m_arena s) -> m_cont s' a = m_cont s a) ->
  ok_all lo s' (ds ++ [d']) (cs ++ [a']).
Proof.
  intros [A B C D] O L Bl M.
  assert (Low : forall j e x, nth_error ds j = Some e -> block e = Some x -> snd x <= a_beg (m_arena s)).
  { intros j e x Hj Hx. destruct (nth_error cs j) as [c|] eqn:Hc.
    2:{ apply nth_error_None in Hc. assert (j < length ds)%nat by (apply nth_error_Some; congruence). lia. }
    pose proof (ao_buf _ _ _ _ (B _ _ _ Hj Hc)) as Z. unfold block in Hx. destruct (d_buf e); [|discriminate].
    injection Hx as <-. cbn [snd]. lia. }
  assert (Get : forall j e, nth_error (ds ++ [d']) j = Some e -> nth_error ds j = Some e \/ (j = length ds /\ e = d')).
  { intros j e H. destruct (Nat.lt_ge_cases j (length ds)) as [Hl|Hl].
    - rewrite nth_error_app1 in H by exact Hl. now left.
    - rewrite nth_error_app2 in H by exact Hl. right. destruct (j - length ds)%nat eqn:Q; cbn in H.
      + injection H as <-. split; [lia|reflexivity].
      + destruct n; discriminate. }
  constructor; [rewrite !app_length; cbn; lia| | |lia].
  - intros j e c Hj Hc. destruct (Get _ _ Hj) as [H|[-> ->]].
    + assert (Hl : (j < length ds)%nat) by (apply nth_error_Some; congruence).
      rewrite nth_error_app1 in Hc by lia. apply (arr_keep lo s); auto; [apply (B j); auto|].
      intros b Hb q Hq. apply M. pose proof (Low _ _ _ H (block_some _ _ Hb)). cbn [snd] in *. lia.
    + rewrite A, nth_error_app2, Nat.sub_diag in Hc by lia. cbn in Hc. injection Hc as <-. exact O.
  - intros j k e f x y Ne Hj Hk Hx Hy. destruct (Get _ _ Hj) as [H|[-> ->]]; destruct (Get _ _ Hk) as [H'|[-> ->]].
    + eapply (C j k); eauto.
    + left. specialize (Low _ _ _ H Hx). specialize (Bl _ Hy). lia.
    + right. specialize (Low _ _ _ H' Hy). specialize (Bl _ Hx). lia.
    + lia.
Qed.

Definition ok_mem (lo : Z) (s : mem) (ds : list darr) (cs : list aarr) : Prop :=
  ok_all lo s ds (map snd cs) /\ map d_size ds = map fst cs.

Lemma nth_map_some {A B} (f : A -> B) l i x : nth_error l i = Some x -> nth_error (map f l) i = Some (f x).
Proof. intros H. now apply map_nth_error. Qed.
Lemma ok_nth lo s ds cs i sz xs : ok_mem lo s ds cs -> nth_error cs i = Some (sz, xs) ->
  exists d, nth_error ds i = Some d /\ d_size d = sz /\ arr_ok lo s d xs.
Proof.
  intros [O E] H. destruct (nth_error ds i) as [d|] eqn:Q.
  - exists d. split; [reflexivity|]. split.
    + apply (nth_map_some d_size) in Q. apply (nth_map_some fst) in H. rewrite E in Q. cbn in H. congruence.
    + eapply (oa_arr _ _ _ _ O); eauto. now apply (nth_map_some snd) in H.
  - apply nth_error_None in Q. pose proof (oa_len _ _ _ _ O) as L. rewrite map_length in L.
    assert (W : (i < length cs)%nat) by (apply nth_error_Some; congruence). unfold aarr in *. lia.
Qed.
Lemma map_upd {A B} (f : A -> B) l i x : map f (upd l i x) = upd (map f l) i (f x).
Proof. revert i. induction l as [|y l IH]; intros [|i]; cbn; auto. now rewrite IH. Qed.
Lemma upd_same {A} (l : list A) i x : nth_error l i = Some x -> upd l i x = l.
Proof. revert i. induction l as [|y l IH]; intros [|i]; cbn; intros H; try discriminate; [congruence|]. now rewrite IH. Qed.

(** Nothing outside the arena's blocks is touched. *)
Record frame (lo : Z) (s s' : mem) : Prop := {
  fr_beg : a_beg (m_arena s) <= a_beg (m_arena s');
  fr_end : a_end (m_arena s') = a_end (m_arena s);
  fr_in : a_beg (m_arena s') <= a_end (m_arena s');
  fr_mem : forall a, a < lo \/ a_end (m_arena s) <= a -> m_cont s' a = m_cont s a }.
Lemma frame_step1 lo s d s' d' xs : arr_ok lo s d xs -> lo <= a_beg (m_arena s) -> a_beg (m_arena s) <= a_end (m_arena s) ->
  step1 s d s' d' -> frame lo s s'.
Proof.
  intros O L I [A B C D E F [G G']]. specialize (G' I). constructor; auto; try lia. intros a [H|H].
  - apply E; [lia|]. intros x Hx Hi. unfold block in Hx. pose proof (ao_buf _ _ _ _ O) as Z.
    destruct (d_buf d); [|discriminate]. injection Hx as <-. cbn [fst snd] in Hi. lia.
  - apply F. lia.
Qed.

Lemma mrun_safe lo s ds cs o cs' : ok_mem lo s ds cs -> aop cs o cs' ->
  a_beg (m_arena s) <= a_end (m_arena s) ->
  safe_m (fun '(ds', s') => ok_mem lo s' ds' cs' /\ frame lo s s') (mrun o ds s).
Proof.
  intros O H In. pose proof O as [O1 O2]. pose proof (oa_lo _ _ _ _ O1) as Lo. destruct H as [cs sz al Hs Ha|cs i sz xs x H Hx|cs i k sz xs x H Hk Hx|cs i sz xs H Hn|cs i xs data H|cs sz al data Hs Ha Hn Hf]; cbn [mrun].
  - cbn [safe_m]. split; [|constructor; auto; lia]. split; [|rewrite !map_app, O2; reflexivity].
    rewrite map_app. cbn [map snd]. apply (add_all lo s); auto; [|lia|discriminate].
    constructor; cbn; auto.
  - destruct (ok_nth _ _ _ _ _ _ _ O H) as (d & Nd & Sd & Od). rewrite Nd.
    eapply safe_m_bind; [apply (push_safe lo s d xs x); auto; congruence|].
    intros [d' s'] [Od' S']. cbn [safe_m]. split; [|now apply (frame_step1 lo s d s' d' xs)]. split.
    + rewrite map_upd. cbn [snd]. apply (step_all lo s) with (d := d) (a := xs); auto.
      now apply (nth_map_some snd) in H.
    + rewrite !map_upd, O2. cbn [fst]. f_equal. rewrite (s1_size _ _ _ _ S'). congruence.
  - destruct (ok_nth _ _ _ _ _ _ _ O H) as (d & Nd & Sd & Od). rewrite Nd.
    destruct (put_safe lo s d xs k x Od Hk) as (s' & E & Od' & S'); [congruence|]. rewrite E. cbn [bind safe_m].
    split; [|now apply (frame_step1 lo s d s' d xs)]. split.
    + rewrite map_upd. cbn [snd]. rewrite <- (upd_same ds i d Nd).
      apply (step_all lo s) with (d := d) (a := xs); auto.
      now apply (nth_map_some snd) in H.
    + rewrite map_upd, O2. cbn [fst]. symmetry. apply upd_same. now apply (nth_map_some fst) in H.
  - destruct (ok_nth _ _ _ _ _ _ _ O H) as (d & Nd & Sd & Od). rewrite Nd. unfold copy_array.
    destruct Od as [A B C D E]. assert (0 < d_len d)%nat by (destruct xs; [congruence|cbn in C; lia]).
    destruct (alloc1_safe (Z.of_nat (d_size d)) (d_align d) (Z.of_nat (d_len d)) s) as [(p & s' & F)|F]; rewrite F; cbn [bind safe_m]; [|exact I].
    apply alloc1_ok in F; [|lia|exact B|lia]. destruct F as (F1 & F2 & F3 & F4 & F5 & F6).
    destruct (d_buf d) as [b|] eqn:Eb; [|destruct E; lia]. cbn [bind safe_m m_arena].
    destruct E as (E1 & E2 & E3 & E4 & E5 & E6). split.
    2:{ constructor; cbn [m_arena m_cont]; auto; try nia. rewrite F6. intros a Ha. apply wr_out. rewrite rd_length. nia. }
    split; [|rewrite !map_app, O2; cbn; congruence].
    rewrite map_app. cbn [map snd]. rewrite F6, E6.
    apply (add_all lo s); auto; cbn [m_arena m_cont]; [| nia| |].
    + constructor; cbn [d_size d_align d_buf d_len d_cap m_arena m_cont]; auto.
      split; [lia|]. split; [lia|]. split; [exact F2|]. split; [lia|]. split; [nia|].
      rewrite C, <- (concat_len _ _ D). apply rd_wr.
    + unfold block; cbn [d_size d_buf d_cap]. intros y Hy. injection Hy as <-. cbn [fst]. lia.
    + intros a Ha. apply wr_out. lia.
  - destruct (ok_nth _ _ _ _ _ _ _ O H) as (d & Nd & Sd & Od). rewrite Nd.
    eapply safe_m_bind; [apply (add_raw_safe lo s d xs data); auto|].
    intros [d' s'] [Od' S']. cbn [safe_m]. split; [|now apply (frame_step1 lo s d s' d' xs)]. split.
    + rewrite map_upd. cbn [snd]. apply (step_all lo s) with (d := d) (a := xs); auto.
      now apply (nth_map_some snd) in H.
    + rewrite !map_upd, O2. cbn [fst]. f_equal. rewrite (s1_size _ _ _ _ S'). congruence.
  - assert (0 < length data)%nat by (destruct data; [congruence|cbn; lia]).
    unfold bytes in *. destruct (alloc1_safe (Z.of_nat sz) al (Z.of_nat (length data)) s) as [(p & s' & F)|F]; rewrite F; cbn [bind safe_m]; [|exact I].
    apply alloc1_ok in F; [|lia|exact Ha|lia]. destruct F as (F1 & F2 & F3 & F4 & F5 & F6). cbn [m_arena].
    split.
    2:{ constructor; cbn [m_arena m_cont]; auto; try nia. rewrite F6. intros a Ha'. apply wr_out.
        pose proof (concat_len _ _ Hf) as W. unfold bytes in *. rewrite W. nia. }
    split; [|rewrite !map_app, O2; reflexivity].
    rewrite map_app. cbn [map snd]. rewrite F6.
    apply (add_all lo s); auto; cbn [m_arena m_cont]; [| nia| |].
    + constructor; cbn [d_size d_align d_buf d_len d_cap m_arena m_cont]; auto.
      split; [lia|]. split; [lia|]. split; [exact F2|]. split; [lia|]. split; [nia|].
      pose proof (concat_len _ _ Hf) as W. unfold bytes in *. rewrite <- W. apply rd_wr.
    + unfold block; cbn [d_size d_buf d_cap]. intros y Hy. injection Hy as <-. cbn [fst]. lia.
    + intros a Ha'. apply wr_out. lia.
Qed.

Lemma mruns_safe lo l : forall s ds cs cs', ok_mem lo s ds cs -> aops cs l cs' ->
  a_beg (m_arena s) <= a_end (m_arena s) ->
  safe_m (fun '(ds', s') => ok_mem lo s' ds' cs' /\ frame lo s s') (mruns l ds s).
Proof.
  induction l as [|o l IH]; intros s ds cs cs' O H I; inversion H as [|? ? cs1 ? ? H1 H2]; subst; cbn [mruns].
  - split; [exact O|]. constructor; auto; lia.
  - eapply safe_m_bind; [apply (mrun_safe lo s ds cs o cs1 O H1 I)|]. intros [ds' s'] [O' [F1 F2 F3 F4]].
    assert (W := IH _ _ _ _ O' H2 F3). destruct (mruns l ds' s') as [[ds2 s2]| |[]|]; cbn in *; auto.
    destruct W as [W [G1 G2 G3 G4]]. split; [exact W|]. constructor; try lia; try congruence.
    intros a Ha. rewrite G4, F4; auto. lia.
Qed.
Lemma Forall2_nth {A B} (R : A -> B -> Prop) : forall l l', length l = length l' ->
  (forall i a b, nth_error l i = Some a -> nth_error l' i = Some b -> R a b) -> Forall2 R l l'.
Proof.
  induction l as [|a l IH]; intros [|b l'] L H; try discriminate; constructor.
  - apply (H 0%nat); reflexivity.
  - apply IH; [now injection L|]. intros i x y Hx Hy. apply (H (S i)); assumption.
Qed.
Lemma ok_shows lo s ds cs : ok_mem lo s ds cs -> Forall2 (shows_arr s) ds cs.
Proof.
  intros O. apply Forall2_nth.
  { pose proof (oa_len _ _ _ _ (proj1 O)) as L. now rewrite map_length in L. }
  intros i d [sz xs] Hd Hc. destruct (ok_nth _ _ _ _ _ _ _ O Hc) as (d0 & Hd0 & Sz & [A B C D E]).
  assert (d0 = d) by congruence. subst d0. unfold shows_arr. cbn [fst snd].
  split; [exact Sz|]. split; [exact C|]. intros k x Hk. unfold get.
  assert (Lk : (k < length xs)%nat) by (apply nth_error_Some; congruence).
  destruct (d_buf d) as [b|]; [|destruct E; lia]. destruct E as (E1 & E2 & E3 & E4 & E5 & E6).
  destruct (Nat.ltb_spec k (d_cap d)) as [_|N]; [|lia]. f_equal. rewrite C in E6. now apply (rd_elem _ _ _ xs).
Qed.
Lemma ok_fresh s : ok_mem (a_beg (m_arena s)) s [] [].
Proof.
  split; [|reflexivity]. constructor; cbn; try lia; [intros [|i] ? ? ?|intros [|i] ? ? ? ? ? ? ?]; discriminate.
Qed.

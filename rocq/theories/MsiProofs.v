(** * The open-addressing sets: probe sequences visit every slot, insertion and
    membership are exact. *)
From Coq Require Import List NArith ZArith Znumtheory Zpow_facts Arith Bool Lia Permutation.
From Verif Require Import Base TrieModel MsiModel Lemmas.
Import ListNotations.
Local Open Scope nat_scope.

(** ** Probe positions *)
Lemma step_odd h e : exists q, msi_step h e = (2 * q + 1)%N.
Proof.
  unfold msi_step. set (x := (_ mod _)%N).
  assert (O : N.odd (N.lor x 1) = true).
  { rewrite <- N.bit0_odd, N.lor_spec. simpl. apply orb_true_r. }
  apply N.odd_spec in O. destruct O as [q E]. exists q. exact E.
Qed.

Lemma mod_pow_mod (x : N) (e : nat) : e <= 32 ->
  ((x mod two32) mod 2 ^ N.of_nat e = x mod 2 ^ N.of_nat e)%N.
Proof.
  intros H. unfold two32.
  replace (2 ^ 32)%N with (2 ^ N.of_nat e * 2 ^ (32 - N.of_nat e))%N
    by (rewrite <- N.pow_add_r; f_equal; lia).
  assert (2 ^ N.of_nat e <> 0)%N by (apply N.pow_nonzero; discriminate).
  assert (2 ^ (32 - N.of_nat e) <> 0)%N by (apply N.pow_nonzero; discriminate).
  rewrite N.mod_mul_r by assumption.
  rewrite N.add_mod, (N.mul_comm (2 ^ N.of_nat e)), N.mod_mul, N.add_0_r by assumption.
  rewrite !N.mod_mod by assumption. reflexivity.
Qed.

Lemma index_lookup_mod h e i : e <= 32 ->
  index_lookup h e i = ((i + msi_step h e) mod 2 ^ N.of_nat e)%N.
Proof.
  intros H. unfold index_lookup, msi_mask.
  rewrite <- N.pred_sub, <- N.ones_equiv, N.land_ones. now apply mod_pow_mod.
Qed.

Definition pos (h : N) (e : nat) (k : nat) : N :=
  ((h mod two32 + N.of_nat k * msi_step h e) mod 2 ^ N.of_nat e)%N.
Definition spos h e k : nat := N.to_nat (pos h e k).

Lemma pow_nz e : (2 ^ N.of_nat e <> 0)%N.
Proof. apply N.pow_nonzero. discriminate. Qed.

Lemma pos_lt h e k : (pos h e k < 2 ^ N.of_nat e)%N.
Proof. apply N.mod_lt, pow_nz. Qed.

Lemma pow_nat e : N.of_nat (2 ^ e) = (2 ^ N.of_nat e)%N.
Proof. now rewrite Nat2N.inj_pow. Qed.

Lemma spos_lt h e k : spos h e k < 2 ^ e.
Proof.
  unfold spos. pose proof (pos_lt h e k). rewrite <- pow_nat in H. lia.
Qed.

Lemma lookup_first h e : e <= 32 -> index_lookup h e (h mod two32) = pos h e 1.
Proof.
  intros H. rewrite index_lookup_mod by exact H. unfold pos.
  now rewrite N.mul_1_l.
Qed.

Lemma lookup_next h e k : e <= 32 -> index_lookup h e (pos h e k) = pos h e (S k).
Proof.
  intros H. rewrite index_lookup_mod by exact H. unfold pos.
  rewrite N.add_mod_idemp_l by apply pow_nz. f_equal. lia.
Qed.

Lemma pow2_divides_odd (e : nat) : forall d q,
  (2 ^ Z.of_nat e | d * (2 * q + 1))%Z -> (2 ^ Z.of_nat e | d)%Z.
Proof.
  intros d q H.
  apply (Gauss _ (2 * q + 1)); [rewrite Z.mul_comm; exact H|].
  apply rel_prime_sym, rel_prime_Zpower_r; [lia|].
  apply rel_prime_sym, bezout_rel_prime. apply (Bezout_intro _ _ _ (- q) 1)%Z. lia.
Qed.

Lemma pos_inj h e a b : a <= b -> b - a < 2 ^ e -> pos h e a = pos h e b -> a = b.
Proof.
  intros L Lt E. destruct (step_odd h e) as [q Eq]. unfold pos in E. rewrite Eq in E.
  set (h0 := (h mod two32)%N) in *.
  assert (D : (2 ^ Z.of_nat e | Z.of_nat (b - a) * (2 * Z.of_N q + 1))%Z).
  { apply (f_equal Z.of_N) in E. rewrite !N2Z.inj_mod, N2Z.inj_pow, nat_N_Z in E.
    rewrite !N2Z.inj_add, !N2Z.inj_mul, N2Z.inj_add, N2Z.inj_mul, !nat_N_Z in E.
    change (Z.of_N 2) with 2%Z in E. change (Z.of_N 1) with 1%Z in E.
    assert (P : (0 < 2 ^ Z.of_nat e)%Z) by (apply Z.pow_pos_nonneg; lia).
    apply Z.mod_divide; [lia|].
    replace (Z.of_nat (b - a) * (2 * Z.of_N q + 1))%Z with
      ((Z.of_N h0 + Z.of_nat b * (2 * Z.of_N q + 1)) - (Z.of_N h0 + Z.of_nat a * (2 * Z.of_N q + 1)))%Z
      by (rewrite Nat2Z.inj_sub by exact L; lia).
    rewrite Zminus_mod, E, Z.sub_diag, Z.mod_0_l by lia. reflexivity. }
  apply pow2_divides_odd in D.
  destruct (Nat.eq_dec a b) as [|N]; [assumption|exfalso].
  assert (Z.of_nat (b - a) < 2 ^ Z.of_nat e)%Z.
  { replace (2 ^ Z.of_nat e)%Z with (Z.of_nat (2 ^ e)) by (rewrite Nat2Z.inj_pow; reflexivity). lia. }
  apply Z.divide_pos_le in D; lia.
Qed.

Lemma spos_inj h e a b : 1 <= a <= 2 ^ e -> 1 <= b <= 2 ^ e -> spos h e a = spos h e b -> a = b.
Proof.
  intros Ha Hb E. apply N2Nat.inj in E.
  destruct (Nat.le_ge_cases a b).
  - eapply pos_inj; eauto. lia.
  - symmetry. eapply pos_inj; eauto. lia.
Qed.

(** The probe sequence of every hash visits every slot. *)
Lemma spos_onto h e t : t < 2 ^ e -> exists k, 1 <= k <= 2 ^ e /\ spos h e k = t.
Proof.
  intros Ht.
  assert (I : incl (seq 0 (2 ^ e)) (map (spos h e) (seq 1 (2 ^ e)))).
  { apply NoDup_length_incl.
    - assert (G : forall l, incl l (seq 1 (2 ^ e)) -> NoDup l -> NoDup (map (spos h e) l)).
      { induction l as [|x l IH]; intros Il Nl; simpl; constructor.
        - intros H. apply in_map_iff in H as (y & Ey & Hy).
          inversion Nl; subst. apply spos_inj in Ey.
          + subst. contradiction.
          + specialize (Il y (or_intror Hy)). apply in_seq in Il. lia.
          + specialize (Il x (or_introl eq_refl)). apply in_seq in Il. lia.
        - inversion Nl; subst. apply IH; [|assumption]. intros z Hz. apply Il. now right. }
      apply G; [apply incl_refl|apply seq_NoDup].
    - rewrite map_length, !seq_length. lia.
    - intros x H. apply in_map_iff in H as (k & <- & _). apply in_seq. pose proof (spos_lt h e k). lia. }
  assert (J : In t (seq 0 (2 ^ e))) by (apply in_seq; lia).
  apply I in J. apply in_map_iff in J as (k & E & K). apply in_seq in K. exists k. split; [lia|exact E].
Qed.

Section Sets.
  Context {A : Type} (zero : A) (is_zero : A -> bool) (eqb : A -> A -> bool) (hash : A -> N).
  Context (zero_spec : forall x, is_zero x = true <-> x = zero).
  Context (eqb_spec : forall x y, eqb x y = true <-> x = y).

  Notation elems := (msi_elems is_zero).

  Definition empty_at (s : msi A) (t : nat) : Prop := nth_error (m_buf s) t = Some zero.

  Record wf (s : msi A) : Prop := {
    w_exp : 1 <= m_exp s <= 31;
    w_buf : length (m_buf s) = 2 ^ m_exp s;
    w_load : length (elems s) < 2 ^ m_exp s;
    w_probe : forall t x, nth_error (m_buf s) t = Some x -> x <> zero ->
      exists k, 1 <= k <= 2 ^ m_exp s /\ spos (hash x) (m_exp s) k = t /\
        forall j, 1 <= j < k -> nth_error (m_buf s) (spos (hash x) (m_exp s) j) <> Some zero /\
                                nth_error (m_buf s) (spos (hash x) (m_exp s) j) <> Some x }.

  Lemma zero_false x : is_zero x = false <-> x <> zero.
  Proof. rewrite <- not_true_iff_false, zero_spec. reflexivity. Qed.

  Lemma in_elems x s : In x (elems s) <-> In x (m_buf s) /\ x <> zero.
  Proof.
    unfold msi_elems. rewrite filter_In, negb_true_iff, zero_false. reflexivity.
  Qed.

  Lemma wf_new e : 1 <= e <= 31 -> wf (msi_new zero e) /\ elems (msi_new zero e) = [] /\ m_len (msi_new zero e) = 0.
  Proof.
    intros H.
    assert (E : elems (msi_new zero e) = []).
    { unfold msi_elems, msi_new. simpl. induction (2 ^ e) as [|n IH]; simpl; auto.
      assert (Z : is_zero zero = true) by now apply zero_spec.
      now rewrite Z. }
    split; [|auto]. constructor; simpl; auto.
    - apply repeat_length.
    - rewrite E. simpl. apply Nat.neq_0_lt_0, Nat.pow_nonzero. discriminate.
    - intros t x Hx N. apply nth_error_In, repeat_spec in Hx. congruence.
  Qed.

  Lemma full_elems (l : list A) : (forall t, t < length l -> nth_error l t <> Some zero) ->
    length (filter (fun x => negb (is_zero x)) l) = length l.
  Proof.
    induction l as [|x l IH]; intros H; simpl; auto.
    assert (N : is_zero x = false).
    { apply zero_false. intros ->. apply (H 0); simpl; [lia|reflexivity]. }
    rewrite N. simpl. f_equal. apply IH. intros t Ht. apply (H (S t)). simpl. lia.
  Qed.

  Lemma has_zero s : wf s -> exists t, t < 2 ^ m_exp s /\ empty_at s t.
  Proof.
    intros W.
    destruct (existsb is_zero (m_buf s)) eqn:E.
    - apply existsb_exists in E as (x & Hx & Z). apply zero_spec in Z. subst x.
      apply In_nth_error in Hx as (t & Ht). exists t. split; [|exact Ht].
      rewrite <- (w_buf _ W). apply nth_error_Some. congruence.
    - exfalso. pose proof (w_load _ W) as L. unfold msi_elems in L.
      rewrite full_elems, (w_buf _ W) in L; [lia|].
      intros t Ht Hz. apply nth_error_In in Hz.
      assert (X : existsb is_zero (m_buf s) = true).
      { apply existsb_exists. exists zero. split; [exact Hz|now apply zero_spec]. }
      congruence.
  Qed.

  (** Where the probe loop stops. *)
  Definition stops (v : A) (s : msi A) (k : nat) (z : bool) : Prop :=
    1 <= k <= 2 ^ m_exp s /\
    (forall j, 1 <= j < k -> nth_error (m_buf s) (spos (hash v) (m_exp s) j) <> Some zero /\
                             nth_error (m_buf s) (spos (hash v) (m_exp s) j) <> Some v) /\
    (if z then nth_error (m_buf s) (spos (hash v) (m_exp s) k) = Some zero
     else nth_error (m_buf s) (spos (hash v) (m_exp s) k) = Some v /\ v <> zero).

  Lemma probe_ok v s : wf s ->
    exists k z, probe is_zero eqb (length (m_buf s)) v (hash v) s (hash v mod two32) =
                Ok (pos (hash v) (m_exp s) k, z) /\ stops v s k z.
  Proof.
    intros W. destruct (has_zero s W) as (t & Ht & Z).
    destruct (spos_onto (hash v) (m_exp s) t Ht) as (k0 & K0 & E0).
    assert (Hexp : m_exp s <= 32) by (pose proof (w_exp _ W); lia).
    assert (G : forall fuel k i, index_lookup (hash v) (m_exp s) i = pos (hash v) (m_exp s) (S k) ->
      k < k0 -> k0 - k <= fuel ->
      (forall j, 1 <= j < S k -> nth_error (m_buf s) (spos (hash v) (m_exp s) j) <> Some zero /\
                             nth_error (m_buf s) (spos (hash v) (m_exp s) j) <> Some v) ->
      exists k' z, probe is_zero eqb fuel v (hash v) s i = Ok (pos (hash v) (m_exp s) k', z) /\ stops v s k' z).
    { induction fuel as [|f IH]; intros k i Ei Lk Lf Hj; [lia|].
      cbn [probe]. rewrite Ei. unfold slot.
      change (N.to_nat (pos (hash v) (m_exp s) (S k))) with (spos (hash v) (m_exp s) (S k)).
      pose proof (spos_lt (hash v) (m_exp s) (S k)) as Lp. rewrite <- (w_buf _ W) in Lp.
      destruct (nth_error (m_buf s) (spos (hash v) (m_exp s) (S k))) as [x|] eqn:Ex;
        [|apply nth_error_None in Ex; lia].
      cbn [bind]. destruct (is_zero x) eqn:Zx.
      - apply zero_spec in Zx. subst x. exists (S k), true. split; [reflexivity|].
        split; [lia|]. split; [exact Hj|exact Ex].
      - destruct (eqb x v) eqn:Ev.
        + apply eqb_spec in Ev. subst x. exists (S k), false. split; [reflexivity|].
          split; [lia|]. split; [exact Hj|]. split; [exact Ex|now apply zero_false].
        + destruct (Nat.eq_dec (S k) k0) as [E|N].
          { exfalso. unfold empty_at in Z. rewrite <- E0, <- E, Ex in Z. injection Z as ->.
            apply zero_false in Zx. congruence. }
          apply (IH (S k)); [now apply lookup_next|lia|lia|].
          intros j J. destruct (Nat.eq_dec j (S k)) as [->|Nj].
          * rewrite Ex. split; intros E; injection E as ->.
            -- apply zero_false in Zx. congruence.
            -- assert (eqb v v = true) by now apply eqb_spec. congruence.
          * apply Hj. lia. }
    apply (G _ 0); [now apply lookup_first|lia|rewrite (w_buf _ W); lia|intros; lia].
  Qed.

  Lemma stops_in v s k z : wf s -> stops v s k z -> v <> zero ->
    (z = false <-> In v (m_buf s)).
  Proof.
    intros W (K & J & Z) N. split.
    - intros ->. destruct Z as [Z _]. eapply nth_error_In; eauto.
    - intros I. destruct z; [exfalso|reflexivity].
      apply In_nth_error in I as (t & Ht).
      destruct (w_probe _ W t v Ht N) as (k' & K' & E' & J').
      destruct (Nat.lt_trichotomy k k') as [L|[L|L]].
      + destruct (J' k) as [X _]; [lia|]. contradiction.
      + subst k'. rewrite E', Ht in Z. injection Z as Z. congruence.
      + destruct (J k') as [_ X]; [lia|]. rewrite E' in X. contradiction.
  Qed.

  (** Membership. *)
  Lemma contains_ok v s : wf s -> v <> zero ->
    exists r, msi_contains is_zero eqb v (hash v) s = Ok r /\ (r = true <-> In v (elems s)).
  Proof.
    intros W N. destruct (probe_ok v s W) as (k & z & E & St).
    unfold msi_contains. rewrite E. cbn [bind]. exists (negb z). split; [reflexivity|].
    rewrite negb_true_iff, (stops_in _ _ _ _ W St N), in_elems. tauto.
  Qed.

  Lemma contains_zero s : wf s -> msi_contains is_zero eqb zero (hash zero) s = Ok false.
  Proof.
    intros W. destruct (probe_ok zero s W) as (k & z & E & (_ & _ & Z)).
    unfold msi_contains. rewrite E. cbn [bind]. destruct z; [reflexivity|].
    destruct Z as [_ Z]. congruence.
  Qed.

  Lemma upd_elems (l : list A) t v : nth_error l t = Some zero -> v <> zero ->
    Permutation (filter (fun x => negb (is_zero x)) (upd l t v))
                (v :: filter (fun x => negb (is_zero x)) l).
  Proof.
    intros H N. destruct (upd_split _ _ _ v H) as (l1 & l2 & E & _ & Eu). rewrite Eu. subst l.
    rewrite !filter_app. simpl.
    assert (Z : is_zero zero = true) by now apply zero_spec.
    assert (Zv : is_zero v = false) by now apply zero_false.
    rewrite Z, Zv. simpl. symmetry. apply Permutation_middle.
  Qed.

  (** Insertion of a proper value into a set with a free slot to spare. *)
  Lemma insert_ok v s : wf s -> v <> zero -> S (length (elems s)) < 2 ^ m_exp s ->
    exists r s', msi_insert is_zero eqb v (hash v) s = Ok (r, s') /\ wf s' /\ m_exp s' = m_exp s /\
      (r = true <-> ~ In v (elems s)) /\
      (r = true -> Permutation (elems s') (v :: elems s) /\ m_len s' = S (m_len s)) /\
      (r = false -> s' = s).
  Proof.
    intros W N L. destruct (probe_ok v s W) as (k & z & E & St).
    unfold msi_insert. rewrite E. cbn [bind].
    pose proof (stops_in _ _ _ _ W St N) as SI.
    destruct z.
    - eexists true, _. split; [reflexivity|].
      destruct St as (K & J & Z).
      change (N.to_nat (pos (hash v) (m_exp s) k)) with (spos (hash v) (m_exp s) k) in *.
      set (t := spos (hash v) (m_exp s) k) in *.
      assert (P : Permutation (filter (fun x => negb (is_zero x)) (upd (m_buf s) t v))
                (v :: filter (fun x => negb (is_zero x)) (m_buf s))) by now apply upd_elems.
      assert (Lt : t < length (m_buf s)) by (rewrite (w_buf _ W); apply spos_lt).
      split; [|split; [reflexivity|]].
      + constructor; cbn [m_exp m_buf m_len].
        * apply (w_exp _ W).
        * rewrite upd_length. apply (w_buf _ W).
        * unfold msi_elems in *. cbn [m_buf]. rewrite (Permutation_length P). simpl. exact L.
        * intros t' x Hx Nx.
          assert (Same : forall u y, u <> t -> nth_error (m_buf s) u <> Some y ->
                    nth_error (upd (m_buf s) t v) u <> Some y).
          { intros u y Nu Hu. rewrite upd_nth_neq by congruence. exact Hu. }
          destruct (Nat.eq_dec t' t) as [->|Nt].
          -- rewrite upd_nth_eq in Hx by exact Lt. injection Hx as <-.
             exists k. split; [exact K|]. split; [reflexivity|]. intros j Hj.
             destruct (J j Hj) as [J1 J2].
             assert (spos (hash v) (m_exp s) j <> t) by (intros X; rewrite X in J1; contradiction).
             split; apply Same; assumption.
          -- rewrite upd_nth_neq in Hx by congruence.
             destruct (w_probe _ W t' x Hx Nx) as (k' & K' & E' & J').
             exists k'. split; [exact K'|]. split; [exact E'|]. intros j Hj.
             destruct (J' j Hj) as [J1 J2].
             assert (spos (hash x) (m_exp s) j <> t) by (intros X; rewrite X in J1; contradiction).
             split; apply Same; assumption.
      + split; [|split; [|discriminate]].
        * split; [|reflexivity]. intros _ I. apply in_elems in I as [I _]. apply SI in I. discriminate.
        * intros _. split; [exact P|reflexivity].
    - exists false, s. split; [reflexivity|]. split; [exact W|]. split; [reflexivity|].
      split; [|split; [discriminate|reflexivity]].
      split; [discriminate|]. intros X. exfalso. apply X, in_elems. split; [now apply SI|exact N].
  Qed.

  (** Inserting the empty value only moves the length. *)
  Lemma insert_zero s : wf s ->
    msi_insert is_zero eqb zero (hash zero) s = Ok (true, mkMsi (m_buf s) (m_exp s) (S (m_len s))) /\
    wf (mkMsi (m_buf s) (m_exp s) (S (m_len s))).
  Proof.
    intros W. destruct (probe_ok zero s W) as (k & z & E & (_ & _ & Z)).
    unfold msi_insert. rewrite E. cbn [bind]. destruct z; [|destruct Z as [_ Z]; congruence].
    split.
    - do 3 f_equal.
      change (N.to_nat (pos (hash zero) (m_exp s) k)) with (spos (hash zero) (m_exp s) k).
      destruct (upd_split _ _ _ zero Z) as (l1 & l2 & E1 & _ & E2). rewrite E2. congruence.
    - destruct W as [W1 W2 W3 W4]. constructor; assumption.
  Qed.

  Lemma elems_nodup s : wf s -> NoDup (elems s).
  Proof.
    intros W. unfold msi_elems.
    assert (U : forall i j x, nth_error (m_buf s) i = Some x -> nth_error (m_buf s) j = Some x -> x <> zero -> i = j).
    { intros i j x Hi Hj N.
      destruct (w_probe _ W i x Hi N) as (a & Ka & Ea & Ja).
      destruct (w_probe _ W j x Hj N) as (b & Kb & Eb & Jb).
      destruct (Nat.lt_trichotomy a b) as [L|[L|L]].
      - destruct (Jb a) as [_ X]; [lia|]. rewrite Ea in X. contradiction.
      - congruence.
      - destruct (Ja b) as [_ X]; [lia|]. rewrite Eb in X. contradiction. }
    revert U. generalize (m_buf s) as l. induction l as [|y l IH]; intros U; simpl; [constructor|].
    assert (U' : forall i j x, nth_error l i = Some x -> nth_error l j = Some x -> x <> zero -> i = j).
    { intros i j x Hi Hj N. assert (S i = S j) by (eapply U; eauto). congruence. }
    destruct (is_zero y) eqn:Z; simpl; [now apply IH|].
    constructor; [|now apply IH].
    intros I. apply filter_In in I as [I _]. apply In_nth_error in I as (j & Hj).
    assert (X : 0 = S j) by (eapply (U 0 (S j) y); simpl; auto; now apply zero_false). discriminate.
  Qed.
End Sets.

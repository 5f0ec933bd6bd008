(** * The uint16 set of the query engine and the string set of the comparison
    are mathematical sets. *)
From Coq Require Import List NArith Arith Bool Lia Permutation.
From Verif Require Import Base TrieModel MsiModel Lemmas MsiProofs.
Import ListNotations.
Local Open Scope nat_scope.

Definition uwf : uset -> Prop := wf 0 (Nat.eqb 0) u_hash.

Lemma nz_spec x : Nat.eqb 0 x = true <-> x = 0.
Proof. rewrite Nat.eqb_eq. split; auto. Qed.

(** [s] holds exactly the ids in [u_elems s]; [ph] (0 or 1) counts insertions
    of the value 0, which only move [len]. *)
Record uset_ok (s : uset) (ph : nat) : Prop := {
  uo_wf : uwf s;
  uo_exp : 7 <= m_exp s <= 18;
  uo_len : m_len s = length (u_elems s) + ph;
  uo_ph : ph <= 1;
  uo_half : 2 * m_len s <= 2 ^ m_exp s;
  uo_val : forall x, In x (u_elems s) -> x <> 0 /\ (N.of_nat x < 65536)%N }.

Lemma pow_pos_nat e : 1 <= 2 ^ e.
Proof. pose proof (Nat.pow_nonzero 2 e). lia. Qed.
Lemma pow_S e : 2 ^ S e = 2 * 2 ^ e.
Proof. reflexivity. Qed.
Lemma half_pow e : 1 <= e -> 2 ^ e / 2 = 2 ^ (e - 1).
Proof.
  intros H. destruct e as [|e]; [lia|]. rewrite pow_S.
  rewrite (Nat.mul_comm 2), Nat.div_mul by discriminate. f_equal. lia.
Qed.

Lemma uset_new e : 7 <= e <= 18 -> uset_ok (u_new e) 0 /\ u_elems (u_new e) = [].
Proof.
  intros H. destruct (wf_new 0 (Nat.eqb 0) u_hash nz_spec e) as (W & E & L); [lia|].
  split; [|exact E]. constructor; auto.
  - change (m_len (u_new e)) with 0. unfold u_elems, u_new. now rewrite E.
  - change (m_len (u_new e)) with 0. lia.
  - unfold u_elems, u_new. rewrite E. contradiction.
Qed.

Lemma u_contains_ok s v : uwf s -> v <> 0 ->
  exists r, u_contains v s = Ok r /\ (r = true <-> In v (u_elems s)).
Proof. intros W N. exact (contains_ok 0 _ _ u_hash nz_spec Nat.eqb_eq v s W N). Qed.

Lemma u_nodup s : uwf s -> NoDup (u_elems s).
Proof. intros W. eapply elems_nodup; eauto. apply nz_spec. Qed.

Lemma u_count (l : list nat) : NoDup l -> (forall x, In x l -> x <> 0 /\ (N.of_nat x < 65536)%N) ->
  (N.of_nat (length l) <= 65535)%N.
Proof.
  intros D V.
  assert (L : length l <= length (seq 1 (N.to_nat 65535))).
  { apply NoDup_incl_length; [exact D|]. intros x Hx. apply in_seq. destruct (V x Hx). lia. }
  rewrite seq_length in L. lia.
Qed.

Lemma u_raw_ok s v : uwf s -> v <> 0 -> S (length (u_elems s)) < 2 ^ m_exp s ->
  exists r s', u_insert_raw v s = Ok (r, s') /\ uwf s' /\ m_exp s' = m_exp s /\
    (r = true <-> ~ In v (u_elems s)) /\
    (r = true -> Permutation (u_elems s') (v :: u_elems s) /\ m_len s' = S (m_len s)) /\
    (r = false -> s' = s).
Proof. intros. eapply insert_ok; eauto using nz_spec. apply Nat.eqb_eq. Qed.

Lemma u_all_ok l : forall s, uwf s -> NoDup (l ++ u_elems s) -> ~ In 0 l ->
  m_len s = length (u_elems s) ->
  S (length l + length (u_elems s)) < 2 ^ m_exp s ->
  exists s', u_insert_all l s = Ok s' /\ uwf s' /\ m_exp s' = m_exp s /\
    Permutation (u_elems s') (l ++ u_elems s) /\ m_len s' = length (u_elems s').
Proof.
  induction l as [|v l IH]; intros s W D Z Ln L.
  - exists s. simpl. auto using Permutation_refl.
  - simpl in *.
    destruct (u_raw_ok s v W) as (r & s1 & E & W1 & E1 & R & T & F); [tauto|lia|].
    rewrite E. cbn [bind].
    inversion D as [|? ? Nv D']; subst.
    assert (Rt : r = true). { apply R. intros I. apply Nv. apply in_or_app. now right. }
    destruct (T Rt) as [P Ls].
    pose proof (Permutation_length P) as Pl. simpl in Pl.
    destruct (IH s1) as (s2 & E2 & W2 & X2 & P2 & L2); auto.
    + apply (Permutation_NoDup (l := v :: l ++ u_elems s)); [|exact D].
      rewrite P. apply Permutation_middle.
    + lia.
    + rewrite E1. lia.
    + exists s2. split; [exact E2|]. split; [exact W2|]. split; [congruence|]. split; [|exact L2].
      rewrite P2, P. symmetry. apply Permutation_middle.
Qed.

Lemma grow_ok s ph : uset_ok s ph ->
  exists s1 ph1, (if 2 ^ m_exp s / 2 <=? m_len s then u_rehash s (u_new (S (m_exp s))) else Ok s) = Ok s1 /\
    uset_ok s1 ph1 /\ ph1 <= ph /\ 2 * S (m_len s1) <= 2 ^ m_exp s1 /\
    Permutation (u_elems s1) (u_elems s).
Proof.
  intros [W X Ln Ph Hf V]. rewrite half_pow by lia.
  assert (PS : 2 ^ m_exp s = 2 * 2 ^ (m_exp s - 1)).
  { rewrite <- pow_S. f_equal. lia. }
  destruct (2 ^ (m_exp s - 1) <=? m_len s) eqn:C.
  - apply Nat.leb_le in C.
    pose proof (u_count _ (u_nodup _ W) V) as Cn.
    assert (Xs : m_exp s <= 17).
    { destruct (Nat.le_gt_cases (m_exp s) 17) as [|G]; [assumption|exfalso].
      assert (E18 : m_exp s = 18) by lia. rewrite E18 in C.
      change (18 - 1) with 17 in C. pose proof (pow_nat 17) as P17. revert C P17.
      generalize (2 ^ 17) as big. intros big C P17. change (2 ^ N.of_nat 17)%N with 131072%N in P17. lia. }
    destruct (uset_new (S (m_exp s))) as [[W1 X1 L1 _ H1 V1] E1]; [lia|].
    destruct (u_all_ok (u_elems s) (u_new (S (m_exp s)))) as (s2 & E2 & W2 & X2 & P2 & L2).
    + exact W1.
    + rewrite E1, app_nil_r. now apply u_nodup.
    + intros I. destruct (V _ I). congruence.
    + rewrite E1. reflexivity.
    + rewrite E1. simpl (length []). change (m_exp (u_new (S (m_exp s)))) with (S (m_exp s)).
      rewrite pow_S. pose proof (pow_pos_nat (m_exp s)).
      assert (128 <= 2 ^ m_exp s) by (change 128 with (2 ^ 7); apply Nat.pow_le_mono_r; lia). lia.
    + rewrite E1, app_nil_r in P2. pose proof (Permutation_length P2) as Pl.
      change (m_exp (u_new (S (m_exp s)))) with (S (m_exp s)) in X2.
      exists s2, 0. split; [exact E2|].
      assert (128 <= 2 ^ m_exp s) by (change 128 with (2 ^ 7); apply Nat.pow_le_mono_r; lia).
      split; [|split; [lia|split; [|exact P2]]].
      * constructor; auto; try lia.
        -- rewrite X2, pow_S. lia.
        -- intros x Hx. apply V. eapply Permutation_in; eauto.
      * rewrite X2, pow_S. lia.
  - apply Nat.leb_gt in C. exists s, ph. split; [reflexivity|].
    split; [constructor; auto|]. split; [lia|]. split; [lia|apply Permutation_refl].
Qed.

(** Insertion of a node id. *)
Lemma u_insert_ok s ph v : uset_ok s ph -> v <> 0 -> (N.of_nat v < 65536)%N ->
  exists r s' ph', u_insert v s = Ok (r, s') /\ uset_ok s' ph' /\ ph' <= ph /\
    (r = true <-> ~ In v (u_elems s)) /\
    (forall x, In x (u_elems s') <-> x = v \/ In x (u_elems s)).
Proof.
  intros O N B. destruct (grow_ok s ph O) as (s1 & p1 & E & [W1 X1 L1 P1 H1 V1] & Lp & Hf & Pm).
  unfold u_insert. rewrite E. cbn [bind].
  assert (128 <= 2 ^ m_exp s1) by (change 128 with (2 ^ 7); apply Nat.pow_le_mono_r; lia).
  destruct (u_raw_ok s1 v W1 N) as (r & s2 & E2 & W2 & X2 & R & T & F); [lia|].
  exists r, s2, p1. split; [exact E2|].
  assert (Eq : forall x, In x (u_elems s1) <-> In x (u_elems s)).
  { intros x. split; apply Permutation_in; [exact Pm|symmetry; exact Pm]. }
  destruct r.
  - destruct (T eq_refl) as [P2 L2]. pose proof (Permutation_length P2) as Pl. simpl in Pl.
    assert (In2 : forall x, In x (u_elems s2) <-> x = v \/ In x (u_elems s)).
    { intros x. rewrite <- Eq. split; intros I.
      - apply (Permutation_in _ P2) in I. destruct I; auto.
      - apply (Permutation_in _ (Permutation_sym P2)). destruct I; [left|right]; auto. }
    split; [|split; [lia|split; [|exact In2]]].
    + constructor; auto; try lia.
      * rewrite X2. lia.
      * intros x Hx. apply In2 in Hx. destruct Hx as [->|Hx]; [auto|]. apply Eq in Hx. now apply V1.
    + rewrite <- Eq. exact R.
  - rewrite (F eq_refl) in *.
    split; [constructor; auto|]. split; [lia|]. split; [rewrite <- Eq; exact R|].
    intros x. rewrite Eq. split; [now right|]. intros [->|I]; [|exact I].
    apply Eq. destruct (in_dec Nat.eq_dec v (u_elems s1)); [assumption|].
    apply R in n. discriminate.
Qed.

(** Inserting 0 into a set without phantom. *)
Lemma u_insert_zero s : uset_ok s 0 ->
  exists s' ph', u_insert 0 s = Ok (true, s') /\ uset_ok s' ph' /\
    (forall x, In x (u_elems s') <-> In x (u_elems s)).
Proof.
  intros O. destruct (grow_ok s 0 O) as (s1 & p1 & E & [W1 X1 L1 P1 H1 V1] & Lp & Hf & Pm).
  unfold u_insert. rewrite E. cbn [bind].
  assert (p1 = 0) by lia. subst p1.
  destruct (insert_zero 0 (Nat.eqb 0) Nat.eqb u_hash nz_spec Nat.eqb_eq s1 W1) as [E2 W2].
  eexists _, 1. split; [exact E2|].
  split.
  - constructor; auto; simpl; try lia.
    unfold u_elems, msi_elems in *. cbn [m_buf]. lia.
  - intros x. change (u_elems {| m_buf := m_buf s1; m_exp := m_exp s1; m_len := S (m_len s1) |}) with (u_elems s1).
    split; apply Permutation_in; [exact Pm|symmetry; exact Pm].
Qed.

Lemma u_reset_ok s ph : uset_ok s ph -> uset_ok (u_reset s) 0 /\ u_elems (u_reset s) = [].
Proof. intros O. apply uset_new. apply (uo_exp _ _ O). Qed.

Lemma u_array_ok s ph : uset_ok s ph -> u_to_array s = Ok (u_elems s ++ repeat 0 ph).
Proof.
  intros O. unfold u_to_array. rewrite (uo_len _ _ O).
  rewrite (proj2 (Nat.leb_le _ _)) by lia. do 3 f_equal. lia.
Qed.

Lemma u_wf_contains s ph v : uset_ok s ph ->
  exists r, u_contains v s = Ok r /\ (r = true <-> In v (u_elems s)).
Proof.
  intros O. destruct (Nat.eq_dec v 0) as [->|N].
  - exists false. split.
    + exact (contains_zero 0 _ _ u_hash nz_spec Nat.eqb_eq s (uo_wf _ _ O)).
    + split; [discriminate|]. intros I. destruct (uo_val _ _ O _ I). congruence.
  - apply u_contains_ok; auto. apply (uo_wf _ _ O).
Qed.

(** ** String sets *)
Definition swf : sset -> Prop := wf [] s_zero djb2.
Lemma sz_spec x : s_zero x = true <-> x = [].
Proof. destruct x; simpl; split; congruence. Qed.

Lemma sset_new e : 1 <= e <= 31 -> swf (s_new e) /\ s_elems (s_new e) = [] /\ m_len (s_new e) = 0.
Proof. intros H. apply wf_new; auto. apply sz_spec. Qed.

Lemma s_contains_ok s v : swf s -> v <> [] ->
  exists r, s_contains v s = Ok r /\ (r = true <-> In v (s_elems s)).
Proof. intros W N. exact (contains_ok [] _ _ djb2 sz_spec beq_eq v s W N). Qed.

Lemma s_insert_ok s v : swf s -> v <> [] -> S (length (s_elems s)) < 2 ^ m_exp s ->
  exists r s', s_insert v s = Ok (r, s') /\ swf s' /\ m_exp s' = m_exp s /\
    (r = true <-> ~ In v (s_elems s)) /\
    (r = true -> Permutation (s_elems s') (v :: s_elems s) /\ m_len s' = S (m_len s)) /\
    (r = false -> s' = s).
Proof. intros. eapply insert_ok; eauto using sz_spec. apply beq_eq. Qed.

Lemma s_insert_zero s : swf s ->
  s_insert [] s = Ok (true, mkMsi (m_buf s) (m_exp s) (S (m_len s))) /\
  swf (mkMsi (m_buf s) (m_exp s) (S (m_len s))).
Proof. intros W. eapply insert_zero; eauto using sz_spec. apply beq_eq. Qed.

Lemma s_nodup s : swf s -> NoDup (s_elems s).
Proof. intros W. eapply elems_nodup; eauto. apply sz_spec. Qed.

Lemma s_elems_nz s x : In x (s_elems s) -> x <> [].
Proof. intros I. apply (in_elems [] s_zero sz_spec) in I. tauto. Qed.

Lemma s_all_ok l s : swf s -> (forall x, In x l -> x <> []) ->
  exists r, s_all_in l s = Ok r /\ (r = true <-> incl l (s_elems s)).
Proof.
  intros W. induction l as [|v l IH]; intros Z; simpl.
  - exists true. split; auto. split; auto. intros _ x [].
  - destruct (s_contains_ok s v W) as (r & E & R); [apply Z; now left|]. rewrite E. cbn [bind].
    destruct r.
    + destruct IH as (r & E' & R'); [intros; apply Z; now right|]. exists r. split; [exact E'|].
      rewrite R'. split.
      * intros I x [<-|Hx]; [now apply R|now apply I].
      * intros I x Hx. apply I. now right.
    + exists false. split; [reflexivity|]. split; [discriminate|]. intros I.
      apply R. apply I. now left.
Qed.

(** Comparison of two sets: equal counters and the same strings. *)
Lemma s_equals_ok a b : swf a -> swf b ->
  exists r, s_equals a b = Ok r /\
    (r = HSuccess <-> m_len a = m_len b /\ forall x, In x (s_elems a) <-> In x (s_elems b)).
Proof.
  intros Wa Wb. unfold s_equals. destruct (m_len a =? m_len b) eqn:E; simpl negb; cbv iota.
  - apply Nat.eqb_eq in E.
    destruct (s_all_ok (s_elems a) b Wb (s_elems_nz a)) as (r & E1 & R1). rewrite E1. cbn [bind].
    destruct r; simpl negb; cbv iota.
    + destruct (s_all_ok (s_elems b) a Wa (s_elems_nz b)) as (r & E2 & R2). rewrite E2. cbn [bind].
      destruct r; simpl negb; cbv iota.
      * exists HSuccess. split; [reflexivity|]. split; [|auto]. intros _. split; [exact E|].
        intros x. split; [now apply R1|now apply R2].
      * exists HContent. split; [reflexivity|]. split; [discriminate|]. intros [_ H].
        assert (false = true) by (apply R2; intros x; apply H). discriminate.
    + exists HContent. split; [reflexivity|]. split; [discriminate|]. intros [_ H].
      assert (false = true) by (apply R1; intros x; apply H). discriminate.
  - exists HSizes. split; [reflexivity|]. split; [discriminate|]. intros [H _]. apply Nat.eqb_neq in E. congruence.
Qed.

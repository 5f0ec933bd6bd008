(** * The interning map refines a list of distinct strings. *)
From Coq Require Import List NArith Arith Bool Lia.
From Verif Require Import Base TrieModel Lemmas.
Import ListNotations.
Local Open Scope nat_scope.

(** Under flat addressing every child access hits child 0. *)
Lemma child_index_flat h : child_index Flat64 h = Ok 0%N.
Proof.
  unfold child_index.
  assert (E : ((8 * (N.shiftl h 62 mod two64)) mod two64 = 0)%N).
  { rewrite N.mul_mod_idemp_r by discriminate.
    rewrite N.shiftl_mul_pow2.
    replace (8 * (h * 2 ^ 62))%N with ((2 * h) * two64)%N
      by (unfold two64; change (2 ^ 64)%N with (4 * 2 ^ 62)%N; ring).
    apply N.mod_mul. discriminate. }
  cbv zeta. rewrite E. reflexivity.
Qed.

(** The shape that results: a linked list along child 0. *)
Fixpoint chain (l : list bytes) (v : nat) : trie :=
  match l with
  | [] => Nil
  | k :: l' => Node k v (chain l' (S v)) Nil Nil Nil
  end.

Definition map_ok (m : amap) (l : list bytes) : Prop :=
  mroot m = chain l 1 /\ mident m = length l /\ NoDup l.

(** Position-based lookup. *)
Definition lookup (k : bytes) (l : list bytes) : nat :=
  match find_idx (beq k) l with Some i => S i | None => 0 end.

Lemma trie_find_chain h key l v :
  trie_find Flat64 h key (chain l v)
  = Ok (match find_idx (beq key) l with Some i => v + i | None => 0 end).
Proof.
  revert h v; induction l as [|k l IH]; intros h v.
  - reflexivity.
  - cbn [chain trie_find find_idx]. destruct (beq key k) eqn:E.
    + f_equal. lia.
    + rewrite child_index_flat. cbn [bind]. rewrite IH.
      destruct (find_idx (beq key) l); auto. f_equal. lia.
Qed.

Lemma trie_add_chain h key w l v :
  w = v + length l ->
  trie_add Flat64 h key w (chain l v) = Ok (chain (l ++ [key]) v).
Proof.
  revert h v; induction l as [|k l IH]; intros h v Hw.
  - cbn in *. subst. rewrite Nat.add_0_r. reflexivity.
  - cbn [chain trie_add app]. rewrite child_index_flat. cbn [bind].
    rewrite IH; [reflexivity|]. simpl in Hw. lia.
Qed.

Lemma lookup_in k l : lookup k l <> 0 <-> In k l.
Proof.
  unfold lookup. destruct (find_idx (beq k) l) eqn:E; split; intros H; auto.
  - apply find_idx_some in E as (x & H1 & H2 & _).
    apply beq_eq in H2. subst. eapply nth_error_In; eauto.
  - congruence.
  - exfalso. rewrite find_idx_none in E. apply E in H.
    rewrite beq_refl in H. discriminate.
Qed.

Lemma lookup_nth k l i : lookup k l = S i -> nth_error l i = Some k.
Proof.
  unfold lookup. destruct (find_idx (beq k) l) eqn:E; intros H; [|discriminate].
  injection H as ->. apply find_idx_some in E as (x & H1 & H2 & _).
  apply beq_eq in H2. congruence.
Qed.

Lemma nth_lookup k l i : NoDup l -> nth_error l i = Some k -> lookup k l = S i.
Proof.
  intros Hn H. assert (Hi : In k l) by (eapply nth_error_In; eauto).
  apply lookup_in in Hi. destruct (lookup k l) as [|j] eqn:E; [congruence|].
  apply lookup_nth in E. f_equal.
  apply (proj1 (NoDup_nth_error l) Hn).
  - apply nth_error_Some. congruence.
  - congruence.
Qed.

Lemma lookup_app k l x : In k l -> lookup k (l ++ x) = lookup k l.
Proof.
  intros H. unfold lookup.
  assert (G : find_idx (beq k) (l ++ x) = find_idx (beq k) l).
  { apply lookup_in in H. unfold lookup in H.
    destruct (find_idx (beq k) l) as [i|] eqn:E; [|congruence]. clear H.
    revert i E. induction l as [|a l IH]; simpl; intros i E; [discriminate|].
    destruct (beq k a); auto.
    destruct (find_idx (beq k) l) eqn:F; [|discriminate].
    now rewrite (IH _ eq_refl). }
  now rewrite G.
Qed.

Lemma lookup_not_in k l : ~ In k l -> lookup k l = 0.
Proof.
  intros H. destruct (lookup k l) eqn:E; auto. exfalso. apply H.
  apply lookup_in. congruence.
Qed.

Lemma lookup_le k l : lookup k l <= length l.
Proof.
  destruct (lookup k l) eqn:E; [lia|]. apply lookup_nth in E.
  assert (n < length l); [|lia]. apply nth_error_Some. congruence.
Qed.

Lemma map_contains_ok k m l :
  map_ok m l -> map_contains k m = Ok (lookup k l).
Proof.
  intros (Hr & _ & _). unfold map_contains, map_contains_m.
  rewrite Hr, trie_find_chain. reflexivity.
Qed.

Lemma map_insert_old k m l :
  map_ok m l -> In k l -> map_insert k m = Ok (false, lookup k l, m).
Proof.
  intros (Hr & _ & _) Hin. unfold map_insert, map_insert_m.
  rewrite Hr, trie_find_chain. cbn [bind].
  apply lookup_in in Hin. unfold lookup in *.
  destruct (find_idx (beq k) l); [reflexivity|congruence].
Qed.

Lemma map_insert_new k m l :
  map_ok m l -> ~ In k l ->
  (length l = N.to_nat 65535 /\ map_insert k m = Longjmp IdLimit) \/
  (length l <> N.to_nat 65535 /\
   map_insert k m = Ok (true, S (length l), mkMap (chain (l ++ [k]) 1) (S (length l)))
   /\ map_ok (mkMap (chain (l ++ [k]) 1) (S (length l))) (l ++ [k])).
Proof.
  intros (Hr & Hi & Hn) Hin. unfold map_insert, map_insert_m.
  rewrite Hr, trie_find_chain. cbn [bind].
  assert (E : find_idx (beq k) l = None).
  { apply find_idx_none. intros x Hx. apply beq_neq. congruence. }
  rewrite E, Hi.
  destruct (N.eqb_spec (N.of_nat (length l)) 65535).
  - left. split; auto. lia.
  - right. split; [lia|]. split.
    + rewrite trie_add_chain by lia. reflexivity.
    + split; [reflexivity|split]; simpl.
      * rewrite app_length. simpl. lia.
      * apply NoDup_rev in Hn. rewrite <- (rev_involutive (l ++ [k])).
        apply NoDup_rev. rewrite rev_app_distr. simpl. constructor; auto.
        rewrite <- in_rev. exact Hin.
Qed.

Lemma map_ok_empty : map_ok empty_map [].
Proof. split; [reflexivity|split; [reflexivity|constructor]]. Qed.

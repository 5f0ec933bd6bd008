(** * Removing only zeroes entries of the parent table. *)
From Coq Require Import List NArith Arith Bool Lia.
From Verif Require Import Base DomModel EditModel Lemmas Surgery Grow.
Import ListNotations.
Local Open Scope nat_scope.

Definition zer (l l' : list (nat * nat)) : Prop :=
  length l' = length l /\
  forall i e, nth_error l' i = Some e -> e = (0, 0) \/ nth_error l i = Some e.
Lemma zer_refl l : zer l l. Proof. split; auto. Qed.
Lemma zer_trans a b c : zer a b -> zer b c -> zer a c.
Proof. intros [L1 H1] [L2 H2]. split; [congruence|]. intros i e E. apply H2 in E as [E|E]; auto. Qed.
Lemma zer_upd l i : zer l (upd l i (0, 0)).
Proof.
  split; [apply upd_length|]. intros j e. rewrite upd_nth. destruct (j =? i) eqn:Ej; [|auto].
  destruct (nth_error l i); [|discriminate]. intros E. injection E as <-. now left.
Qed.
Lemma zer_incl l l' : zer l l' -> incl l' ((0, 0) :: l).
Proof.
  intros [L H] e He. apply In_nth_error in He as [i E]. apply H in E as [->|E]; [now left|].
  right. eapply nth_error_In; eauto.
Qed.

Lemma z_unlink id d : okq (fun d' => zer (pchilds d) (pchilds d')) (unlink_node id d).
Proof.
  unfold unlink_node, get_node. destruct (nth_error (nodes d) id) as [n|] eqn:E; simpl; auto.
  set (d1 := match prev_idx (n_id n) d with Some _ => _ | None => d end).
  assert (E1 : pchilds d1 = pchilds d).
  { unfold d1. destruct (prev_idx _ d); [destruct (next_idx _ d)|]; reflexivity. }
  clearbody d1. eapply okq_bind with (P := fun d2 => zer (pchilds d1) (pchilds d2)).
  - destruct (parent_idx _ d); simpl; [|apply zer_refl].
    destruct (first_idx _ _); simpl; auto.
    destruct (_ =? _); [|simpl; apply zer_upd]. destruct (next_idx _ d); apply zer_upd.
  - intros d2 E2. simpl. rewrite E1 in E2. destruct (next_idx _ d); exact E2.
Qed.
Lemma z_remove_f fuel :
  (forall id d, okq (fun d' => zer (pchilds d) (pchilds d')) (remove_node_f fuel id d)) /\
  (forall id d, okq (fun d' => zer (pchilds d) (pchilds d')) (remove_children_f fuel id d)).
Proof.
  induction fuel as [|f [IH1 IH2]]; split; intros id d; simpl; auto.
  - eapply okq_bind; [apply IH2|]. intros d1 E1. eapply okq_imp; [apply z_unlink|].
    intros d2 E2. exact (zer_trans _ _ _ E1 E2).
  - destruct (0 <? _); simpl; [|apply zer_refl].
    eapply okq_bind; [apply IH1|]. intros d1 E1. eapply okq_imp; [apply IH2|].
    intros d2 E2. exact (zer_trans _ _ _ E1 E2).
Qed.
Lemma zer_remove id d d' : remove_node id d = Ok d' -> zer (pchilds d) (pchilds d').
Proof. intros E. pose proof (proj1 (z_remove_f (remove_fuel d)) id d) as H. unfold remove_node in E. rewrite E in H. exact H. Qed.
Lemma zer_remove_children id d d' : remove_children id d = Ok d' -> zer (pchilds d) (pchilds d').
Proof. intros E. pose proof (proj2 (z_remove_f (remove_fuel d)) id d) as H. unfold remove_children in E. rewrite E in H. exact H. Qed.
Lemma try_merge_pc t s a d b d' : try_merge t s a d = Ok (b, d') ->
  pchilds d' = pchilds d /\ firsts d' = firsts d /\ nexts d' = nexts d.
Proof.
  unfold try_merge, add_text_to_text_node, set_pay. intros H.
  repeat (match goal with E : bind ?x _ = Ok _ |- _ => destruct x eqn:?; [|discriminate E..]; cbn [bind] in E
          | E : (if ?c then _ else _) = Ok _ |- _ => destruct c end);
    repeat match goal with E : Ok _ = Ok _ |- _ => injection E as ?; subst end; auto.
Qed.

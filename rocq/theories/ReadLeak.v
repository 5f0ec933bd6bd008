(** * traverseNode and getTextContent on an element without children (C22, C23). *)
From Coq Require Import List NArith Arith Bool Lia.
From Verif Require Import Base TrieModel DomModel ParserModel EditModel ReadModel DomSpec ApiSpec
  Lemmas Tables Inv Surgery ParseTree Walk EditUser ApiProofs ReadUser.
Import ListNotations.
Local Open Scope nat_scope.

Section Leak.
  Context (d : dom) (R : reachable d).
  Lemma below_parent x : below_eq d 1 x -> x = 1 \/ exists p l, below_eq d 1 p /\ children d p l /\ In x l.
  Proof.
    assert (X : forall a, below_eq d a x -> x = a \/ exists p l, below_eq d a p /\ children d p l /\ In x l).
    { intros a. induction 1 as [n|n c l y Hl Hc H IH]; [now left|]. right.
      destruct IH as [->|(p & m & A & B & C)]; [exists n, l; split; [constructor|auto]|].
      exists p, m. split; [econstructor; eauto|auto]. }
    exact (X 1).
  Qed.
  Context (s : nat) (S0 : s <> 0) (Hs : children d s []).
  Lemma parent_not_s x : below_eq d 1 x -> get_parent x d <> s /\ (get_parent x d = 0 \/ below_eq d 1 (get_parent x d)).
  Proof.
    intros H. destruct (below_parent x H) as [->|(p & l & A & B & C)].
    - pose proof (u_parent_chain d R 1). destruct (Nat.eq_dec (get_parent 1 d) 0) as [->|N]; [auto|lia].
    - apply in_split in C as (l1 & l2 & ->). destruct (u_nav d R p l1 x l2 B) as (-> & _).
      split; [|auto]. intros ->. destruct (u_children d R s) as (m & _ & _ & U & _).
      rewrite <- (U [] Hs) in U. specialize (U _ B). destruct l1; discriminate U.
  Qed.
  Lemma climb_same fuel : forall p, p <> s -> p = 0 \/ below_eq d 1 p -> climb fuel p s d = climb fuel p 0 d.
  Proof.
    induction fuel as [|f IH]; intros p N H; simpl; rewrite (proj2 (Nat.eqb_neq p s) N), orb_false_r, orb_diag;
      destruct (Nat.eqb_spec p 0) as [->|P]; try reflexivity.
    destruct (get_next p d =? 0); [|reflexivity]. destruct H as [->|H]; [lia|].
    destruct (parent_not_s p H) as [A B]. apply IH; auto.
  Qed.
  Lemma leak_tail c l : dom_walk d c l -> c <> s -> below_eq d 1 c -> ~ In s l ->
    (forall x, In x l -> below_eq d 1 x) -> node_walk d s c l.
  Proof.
    assert (T : forall c, c <> s -> below_eq d 1 c -> (forall m, traverse_dom c d = Ok m -> m <> s) ->
                 traverse_node c s d = traverse_dom c d).
    { intros x N H K. unfold traverse_node, traverse_dom in *. destruct (negb (get_first_child x d =? 0)); [reflexivity|].
      rewrite (proj2 (Nat.eqb_neq x s) N). cbn [negb].
      destruct (parent_not_s x H) as [A B]. rewrite climb_same by auto.
      destruct (Nat.eqb_spec (get_next x d) 0) as [E|E].
      - rewrite E. reflexivity.
      - cbn [negb] in *. specialize (K _ eq_refl). rewrite (proj2 (Nat.eqb_neq _ _) K).
        replace (0 <? get_next x d) with true by (symmetry; apply Nat.ltb_lt; lia). reflexivity. }
    induction 1 as [c E|c n l E Hn W IH]; intros N H NI B.
    - constructor. rewrite T; auto. intros m. rewrite E. intros [= <-]. auto.
    - apply (nwalk_step _ _ _ n); [|exact Hn|].
      + rewrite T; auto. intros m. rewrite E. intros [= <-] ->. apply NI. now left.
      + apply IH; [intros ->; apply NI; now left|apply B; now left|intros K; apply NI; now right|].
        intros x K. apply B. now right.
  Qed.
  Lemma dom_walk_suffix c a b : dom_walk d c (a ++ s :: b) -> dom_walk d s b.
  Proof.
    revert c. induction a as [|y a IH]; intros c W; inversion W; subst; [assumption|]. eapply IH; eauto.
  Qed.
  Lemma u_leak a b : preorder d 1 (a ++ s :: b) -> get_next s d <> 0 ->
    node_walk d s s b /\ get_text_content s d = Ok (texts d b).
  Proof.
    intros P N. destruct (u_preorder d R 1) as (l & P1 & Nd & U & Bel); [lia|].
    pose proof (U _ P) as E. assert (W : node_walk d s s b).
    { assert (DW : dom_walk d s b).
      { pose proof (u_traverse_dom d R l P1) as D1. destruct a as [|z a]; simpl in E; injection E as -> El.
        - subst. exact D1.
        - subst l. eapply dom_walk_suffix; eauto. }
      assert (Ns : ~ In s b) by (rewrite <- E in Nd; apply NoDup_remove_2 in Nd; intros K; apply Nd, in_or_app; auto).
      assert (Bb : forall x, In x b -> below_eq d 1 x).
      { intros x K. apply Bel. rewrite <- E. apply in_or_app. right. now right. }
      assert (Tn : forall m, traverse_dom s d = Ok m -> m = get_next s d).
      { intros m. unfold traverse_dom. destruct (reachable_good d R) as [k G].
        assert (F : get_first_child s d = 0).
        { apply (kc _ k) in Hs; [|exact G]. rewrite (get_first_child_at (g_inv _ _ G) s S0). now rewrite <- Hs. }
        rewrite F. cbn [Nat.eqb negb]. rewrite (proj2 (Nat.eqb_neq _ _) N). now intros [= <-]. }
      inversion DW as [c E0|c n b' E0 Hn W']; subst.
      - apply Tn in E0. lia.
      - assert (En : n = get_next s d) by now apply Tn.
        apply (nwalk_step _ _ _ n); [|exact Hn|].
        + unfold traverse_node. unfold traverse_dom in E0. rewrite <- En in E0. revert E0.
          destruct (negb (get_first_child s d =? 0)); [now intros|]. rewrite (proj2 (Nat.eqb_neq _ _) Hn). cbn [negb].
          rewrite <- En. intros _. replace (0 <? n) with true by (symmetry; apply Nat.ltb_lt; lia).
          rewrite (proj2 (Nat.eqb_neq n s)); [reflexivity|]. intros ->. apply Ns. now left.
        + apply leak_tail; [exact W'|intros ->; apply Ns; now left|apply Bb; now left|intros K; apply Ns; now right|].
          intros x K. apply Bb. now right. }
    split; [exact W|]. destruct (reachable_good d R) as [k G].
    assert (Bd : forall x, In x b -> x < length (nodes d)).
    { intros x K. assert (Bx : below_eq d 1 x) by (apply Bel; rewrite <- E; apply in_or_app; right; now right).
      destruct (below_parent x Bx) as [->|(p & m & _ & B & C)].
      - destruct (u_children d R 1) as (m & C1 & _). pose proof (ty_one _ _ (g_ty _ _ G)) as T1.
        unfold kind in T1. apply nth_error_Some. intros F. rewrite F in T1. discriminate T1.
      - destruct (u_children d R p) as (m' & _ & _ & U' & V & _). specialize (U' _ B). subst m'.
        now apply V in C. }
    unfold get_text_content. apply text_content_walk; [apply (ty_pay _ _ (g_ty _ _ G))|exact W|exact Bd|].
    assert (length b <= length (nodes d)); [|lia].
    transitivity (length (seq 0 (length (nodes d)))); [|rewrite seq_length; auto].
    apply NoDup_incl_length.
    - rewrite <- E in Nd. clear - Nd. induction a as [|z a IH]; simpl in Nd; inversion Nd; auto.
    - intros x K. apply in_seq. specialize (Bd x K). lia.
  Qed.
End Leak.

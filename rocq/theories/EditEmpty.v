(** * Fragments without nodes. *)
From Coq Require Import List NArith Arith Bool Lia.
From Verif Require Import Base TrieModel DomModel ParserModel EditModel ReadModel DomSpec ApiSpec
  Lemmas TrieProofs Tables Inv Surgery Link RegProofs ParseSafe ParseTree ParseLoop Walk
  EditProofs EditOps AttrProofs ApiProofs NoJump EditUser Grow.
Import ListNotations.
Local Open Scope nat_scope.

Lemma empty_frag d k bl h d1 : Good d k -> parse_extra (Some bl) h d = Ok (true, d1) ->
  length (nodes d1) = length (nodes d) -> exists k1, Good d1 k1 /\ forall p, p < length (nodes d) -> k1 (Par p) = k (Par p).
Proof.
  intros G E L. pose proof (parse_extra_ok h bl d k G) as S. rewrite E in S.
  destruct S as (k1 & W & _). exists k1. split; [apply W|].
  intros p Hp. apply (pw_old _ _ _ _ _ _ W); [discriminate|exact Hp].
Qed.

Lemma u_empty_fragment d bl h d1 p : reachable d ->
  parse_extra (Some bl) h d = Ok (true, d1) -> length (nodes d1) = length (nodes d) ->
  node_id d p ->
  (children d p [] ->
     (exists d', append_html (Some bl) p h d = Ok (length (nodes d), d') /\
        get_first_child p d' = length (nodes d) /\ nth_error (nodes d') (length (nodes d)) = None) /\
     (exists d', prepend_html (Some bl) p h d = Ok (length (nodes d), d') /\
        get_first_child p d' = length (nodes d) /\ nth_error (nodes d') (length (nodes d)) = None)) /\
  (forall c l, children d p (c :: l) ->
     append_html (Some bl) p h d = Undef OobRead /\ prepend_html (Some bl) p h d = Undef OobRead /\
     forall x, In x (c :: l) -> replace_with_html (Some bl) x h d = Undef OobRead).
Proof.
  intros R E L Hp. destruct (reachable_good d R) as [k G].
  destruct (empty_frag d k bl h d1 G E L) as (k1 & G1 & Hk). pose proof (g_inv _ _ G1) as I1.
  assert (LN : get_last_next (length (nodes d)) d1 = Ok (length (nodes d))).
  { pose proof (inv_len _ _ (g_inv _ _ G)).
    apply (get_last_next_free I1); [lia|]. intros q HI. pose proof (kw_bound _ _ (inv_kw _ _ I1) _ _ HI). lia. }
  assert (NX : get_next (length (nodes d)) d1 = 0).
  { pose proof (inv_len _ _ (g_inv _ _ G)). apply (get_next_none I1); [lia|].
    intros q HI. pose proof (kw_bound _ _ (inv_kw _ _ I1) _ _ HI). lia. }
  assert (NN : get_node d1 (length (nodes d)) = Undef OobRead).
  { unfold get_node. destruct (nth_error (nodes d1) (length (nodes d))) eqn:X; [|reflexivity].
    assert (length (nodes d) < length (nodes d1)) by (apply nth_error_Some; congruence). lia. }
  assert (NE : nth_error (nodes d1) (length (nodes d)) = None).
  { apply nth_error_None. lia. }
  destruct Hp as [P1 P2]. split.
  - intros K. apply (kc _ k) in K; [|exact G].
    assert (F : get_first_child p d1 = 0). { rewrite (get_first_child_at I1) by lia. now rewrite Hk, <- K. }
    assert (FI : first_idx p d1 = None).
    { pose proof (first_at I1 p ltac:(lia)) as X. now rewrite Hk, <- K in X by lia. }
    set (d' := push_pchild (push_first d1 (p, length (nodes d))) (p, length (nodes d))).
    assert (C : connect_others p (length (nodes d)) d' = Ok d').
    { unfold connect_others. change (get_next (length (nodes d)) d') with (get_next (length (nodes d)) d1).
      rewrite NX. reflexivity. }
    assert (F' : get_first_child p d' = length (nodes d)).
    { unfold get_first_child, first_idx. cbn [firsts d' push_first push_pchild set_firsts set_pchilds].
      unfold first_idx in FI. pose proof (proj1 (find_idx_none _ _) FI) as FN.
      assert (X : forall l, (forall x, In x l -> (fst x =? p) = false) ->
        find_idx (fun e => fst e =? p) (l ++ [(p, length (nodes d))]) = Some (length l)).
      { induction l as [|a l IH]; intros H; simpl; [now rewrite Nat.eqb_refl|].
        rewrite (H a) by now left. rewrite IH; [reflexivity|]. intros; apply H; now right. }
      rewrite X by exact FN. unfold at_idx. rewrite app_nth2, Nat.sub_diag by lia. reflexivity. }
    split; exists d'; (split; [|split; [exact F'|exact NE]]).
    + unfold append_html. cbv zeta. rewrite E. cbn [bind negb]. rewrite F. cbn [Nat.ltb Nat.leb].
      unfold append_refs. rewrite FI. fold d'. rewrite C. reflexivity.
    + unfold prepend_html. cbv zeta. rewrite E. cbn [bind negb]. rewrite F. cbn [Nat.ltb Nat.leb].
      unfold prepend_refs. rewrite FI. fold d'. rewrite C. reflexivity.
  - intros c l K. apply (kc _ k) in K; [|exact G].
    assert (Hc : In c (k (Par p))) by (rewrite <- K; now left).
    pose proof (kw_bound _ _ (inv_kw _ _ (g_inv _ _ G)) _ _ Hc) as Bc.
    assert (F : get_first_child p d1 = c). { rewrite (get_first_child_at I1) by lia. now rewrite Hk, <- K. }
    assert (Fc : (0 <? get_first_child p d1) = true) by (apply Nat.ltb_lt; lia).
    split; [|split].
    + unfold append_html. cbv zeta. rewrite E. cbn [bind negb]. rewrite Fc, LN. cbn [bind]. rewrite NN. reflexivity.
    + unfold prepend_html. cbv zeta. rewrite E. cbn [bind negb]. rewrite Fc, LN. cbn [bind].
      rewrite Nat.ltb_irrefl, NN. reflexivity.
    + intros x Hx. unfold replace_with_html. cbv zeta. rewrite E. cbn [bind negb]. rewrite LN. cbn [bind].
      rewrite Nat.ltb_irrefl. unfold try_merge_both. rewrite NN. reflexivity.
Qed.

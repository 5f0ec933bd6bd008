(** * What [addTextToTextNode] and [setTagOnDocumentNode] do, on every reachable DOM. *)
From Coq Require Import List NArith Arith Bool Lia.
From Verif Require Import Base TrieModel DomModel ParserModel EditModel ReadModel DomSpec ApiSpec CompareSpec
  Lemmas TrieProofs Tables Inv Surgery Attach Link RegProofs ParseSafe ParseTree EditProofs EditHtml
  NodeEdit ApiProofs NoJump EditUser ReadUser.
Import ListNotations.
Local Open Scope nat_scope.

Lemma set_tag_paired d n tag p d' : RegInv d -> kind d n = Some TDocument -> set_tag tag n p d = Ok d' ->
  (forall m, m <> n -> paired d' m = paired d m) /\
  (tag <> [] -> forall m b, tag_name d m = Some tag -> paired d m = Some b -> paired d' n = Some b) /\
  (~ In tag (map t_name (tl (tag_reg d))) -> paired d' n = Some p).
Proof.
  intros R K E. unfold kind in K. destruct (nth_error (nodes d) n) as [x|] eqn:En; [|discriminate]. injection K as K.
  assert (Ln : n < length (nodes d)) by (apply nth_error_Some; congruence).
  unfold set_tag in E. pose proof (intern_reg tag _ _ (ri_tag _ R)) as Q.
  destruct (map_insert tag (tag_map d)) as [[[ins t] m']| | |]; try discriminate. cbn [bind] in E. simpl in Q.
  destruct Q as (R1 & Q1 & Q2 & Q3).
  unfold set_pay, get_node in E. cbn [nodes set_tags] in E. rewrite En in E. cbn [bind] in E. injection E as <-.
  set (reg := if ins then tag_reg d ++ [mkTag tag p] else tag_reg d) in *.
  assert (Hext : forall i r, nth_error (tag_reg d) i = Some r -> nth_error reg i = Some r).
  { intros i r Hi. unfold reg. destruct ins; auto. rewrite nth_error_app1; auto. apply nth_error_Some. congruence. }
  assert (Hnm : map t_name reg = if ins then map t_name (tag_reg d) ++ [tag] else map t_name (tag_reg d)).
  { unfold reg. destruct ins; auto. now rewrite map_app. }
  rewrite <- Hnm in R1, Q1. rewrite nth_error_map in Q1. destruct (nth_error reg t) as [r|] eqn:Er; [|discriminate].
  injection Q1 as Q1.
  assert (PN : paired (set_nodes (set_tags d reg m') (upd (nodes d) n (mkNode (n_id x) (n_type x) (PTag t)))) n = Some (t_paired r)).
  { unfold paired. cbn [nodes set_nodes tag_reg set_tags]. rewrite upd_nth_eq by auto. rewrite K, Er. reflexivity. }
  split; [|split].
  - intros m Hm. unfold paired. cbn [nodes set_nodes tag_reg set_tags]. rewrite upd_nth_neq by auto.
    destruct (nth_error (nodes d) m) as [[i ty [tm|s|]]|] eqn:Em; auto. destruct ty; auto.
    pose proof (ri_tags _ R m _ tm Em eq_refl) as Lt.
    destruct (nth_error (tag_reg d) tm) eqn:Et; [|apply nth_error_None in Et; lia]. now rewrite (Hext _ _ Et).
  - intros Hne m b T P. unfold set_nodes in *. rewrite PN. clear PN.
    unfold tag_name in T. unfold paired in P. destruct (nth_error (nodes d) m) as [[i ty [tm|s|]]|] eqn:Em; try discriminate; try (destruct ty; discriminate).
    destruct ty; try discriminate. destruct (nth_error (tag_reg d) tm) as [r0|] eqn:Et; [|discriminate].
    injection T as T. injection P as <-. apply Hext in Et.
    destruct R1 as (l & El & Hl & Hl2 & ND).
    assert (H0 : forall j s, j <> 0 -> nth_error (map t_name reg) j = Some s -> nth_error l (pred j) = Some s).
    { intros j s Hj. rewrite El. destruct j; [congruence|]. auto. }
    assert (tm <> 0).
    { intros ->. apply Hne. assert (nth_error (map t_name reg) 0 = Some (t_name r0)) by (rewrite nth_error_map, Et; reflexivity).
      rewrite El in H. simpl in H. congruence. }
    assert (A : nth_error l (pred tm) = Some tag) by (apply H0; auto; rewrite nth_error_map, Et; simpl; congruence).
    assert (B : nth_error l (pred t) = Some tag) by (apply H0; auto; rewrite nth_error_map, Er; simpl; congruence).
    assert (pred tm = pred t).
    { apply (proj1 (NoDup_nth_error l) ND); [apply nth_error_Some; congruence|congruence]. }
    assert (tm = t) by lia. subst tm. rewrite Er in Et. congruence.
  - intros NI. unfold set_nodes in *. rewrite PN. f_equal. unfold reg in Er. destruct ins.
    + destruct (Nat.lt_ge_cases t (length (tag_reg d))) as [L|L].
      * exfalso. apply NI. rewrite nth_error_app1 in Er by auto.
        destruct (tag_reg d) as [|r0 rs]; [simpl in L; lia|]. destruct t; [lia|]. simpl in Er. cbn [tl].
        apply nth_error_In in Er. rewrite <- Q1. now apply in_map.
      * rewrite nth_error_app2 in Er by auto. destruct (t - length (tag_reg d)) as [|y]; [|destruct y; discriminate].
        simpl in Er. injection Er as <-. reflexivity.
    + exfalso. apply NI. destruct (tag_reg d) as [|r0 rs]; [destruct t; discriminate|]. destruct t; [lia|]. simpl in Er. cbn [tl].
      apply nth_error_In in Er. rewrite <- Q1. now apply in_map.
Qed.

Section Node.
  Context (d : dom) (R : reachable d).

  Lemma same_kids d' k : Good d k -> Good d' k -> forall q m, children d' q m <-> children d q m.
  Proof. intros G G' q m. rewrite (kc _ _ _ _ G), (kc _ _ _ _ G'). reflexivity. Qed.

  Lemma u_add_text n s app : kind d n = Some TText ->
    exists old d', text_of d n = Some old /\ add_text_to_text_node n s app d = Ok d' /\
      retexted d d' n (if app then old ++ [cSP] ++ s else s ++ [cSP] ++ old) /\
      (forall m, m <> n -> same_content d d' m) /\
      (forall q m, children d' q m <-> children d q m) /\ length (nodes d') = length (nodes d) /\
      (forall m, paired d' m = paired d m).
  Proof.
    intros K. destruct (reachable_good d R) as [k G]. destruct (kind_text_of _ _ _ G K) as [old O].
    exists old. eexists. split; [exact O|]. split; [eapply add_text_eq; eauto|].
    destruct (text_of_kind _ _ _ O) as [_ L].
    split; [|split; [|split; [|split]]].
    - edestruct (text_set_self d n) as (A & B & C & D & E); [|unfold retexted; eauto]. first [exact K|exact L].
    - intros m Hm. now apply text_set_content.
    - eapply same_kids; eauto. now apply text_set_good.
    - unfold text_set. cbn [nodes set_nodes]. apply upd_length.
    - intros m. unfold paired, text_set. cbn [nodes set_nodes tag_reg].
      destruct (Nat.eq_dec m n) as [->|Hm]; [|rewrite upd_nth_neq by auto; reflexivity].
      rewrite upd_nth_eq by auto. unfold kind in K. destruct (nth_error (nodes d) n) as [[i ty pay]|]; [|discriminate].
      injection K as K. simpl in K. subst. reflexivity.
  Qed.

  Lemma u_set_tag n tag p : kind d n = Some TDocument ->
    gives d 1 (set_tag tag n p d) (fun d' => retagged d d' n tag /\
      (forall m, m <> n -> same_content d d' m) /\
      (forall q m, children d' q m <-> children d q m) /\ length (nodes d') = length (nodes d)).
  Proof.
    intros K. destruct (reachable_good d R) as [k G]. apply (gives_safe d k 1); [exact G| |].
    - eapply safe_imp; [apply (set_tag_good d k n tag p G K)|]. intros d' (G' & A & B & C).
      split; [auto|]. split; [auto|]. split; [eapply same_kids; eauto|auto].
    - intros H. apply (nj_any (fun d' => room d' 0)). apply nj_set_tag. exact H.
  Qed.
End Node.

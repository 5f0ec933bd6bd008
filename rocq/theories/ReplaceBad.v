(** * The two cases in which replaceWithHTML goes wrong, exactly. *)
From Coq Require Import List NArith Arith Bool Lia.
From Verif Require Import Base TrieModel DomModel ParserModel EditModel DomSpec ApiSpec
  Lemmas TrieProofs Tables Inv Surgery Attach Replace Link RegProofs ParseSafe ParseTree
  ParseLoop Walk EditProofs EditOps EditHtml ApiProofs NoJump EditUser EditUserHtml.
Import ListNotations.
Local Open Scope nat_scope.

Definition null_case (d d1 : dom) (l1 l2 : list nat) : Prop :=
  let n0 := length (nodes d) in
  sibs d1 n0 [n0] /\ is_text_node d1 n0 /\ l1 = [] /\ exists c l, l2 = c :: l /\ is_text_node d1 c.
Definition ghost_case (d d1 : dom) (l1 l2 : list nat) (b : nat) : Prop :=
  let n0 := length (nodes d) in
  sibs d1 n0 [n0; b] /\ is_text_node d1 n0 /\ is_text_node d1 b /\
     (exists c l, l1 = l ++ [c] /\ is_text_node d1 c) /\
     (exists c l, l2 = c :: l /\ is_text_node d1 c).

Section R.
  Context (d : dom) (HR : reachable d) (bl h : bytes) (d1 : dom).
  Context (E : parse_extra (Some bl) h d = Ok (true, d1)) (L : length (nodes d) < length (nodes d1)).
  Context (p c : nat) (l1 l2 : list nat) (Hl : children d p (l1 ++ c :: l2)).
  Let n := length (nodes d).

  Lemma frag_of tops : sibs d1 n tops -> exists k k1 rest, Good d k /\ frag d k d1 k1 rest /\ tops = n :: rest /\
     k1 (Par p) = l1 ++ c :: l2 /\ k (Par p) = l1 ++ c :: l2 /\ 1 <= p < n /\ (forall x, In x (k1 (Par p)) -> x < n).
  Proof.
    intros HT. destruct (reachable_good d HR) as [k G].
    pose proof (rep_node_id d d1 L p c l1 l2 Hl k G) as Hp.
    destruct (placed d bl h d1 E L tops HT p _ Hp Hl k G) as (k1 & rest & F & Et & El & Old).
    exists k, k1, rest. split; [exact G|]. split; [exact F|]. split; [exact Et|]. split; [auto|].
    split; [apply (kc _ _ _ _ G) in Hl; auto|]. split; [exact Hp|].
    intros x Hx. rewrite <- El in Hx. apply Old. auto.
  Qed.

  Lemma null_ok : null_case d d1 l1 l2 -> replace_with_html (Some bl) c h d = Undef NullDeref.
  Proof.
    intros (S1 & (s & Ts) & El1 & c2 & l & El2 & (s2 & T2)).
    destruct (frag_of [n] S1) as (k & k1 & rest & G & F & Et & Ek1 & Ek & Hp & Hold).
    assert (rest = []) as -> by congruence.
    unfold replace_with_html. rewrite E. cbn [bind negb].
    destruct F. apply (replace_frag_null d1 k1 fr_good n p [] fr_top Hp fr_gt fr_leaf Hold c l1 l2 Ek1).
    - unfold single_merge. fold n in Ts. rewrite Ts. unfold replace_target. rewrite El1, El2. simpl.
      rewrite T2. discriminate.
    - exact El1.
  Qed.

  Lemma ghost_ok b : ghost_case d d1 l1 l2 b ->
    exists d', replace_with_html (Some bl) c h d = Ok (b, d') /\ length (nodes d') = length (nodes d1) /\
      children d' p (l1 ++ b :: l2) /\ kind d' b = Some TRemoved /\ kind d' n = Some TRemoved /\ kind d' c = Some TRemoved.
  Proof.
    intros (S1 & (s & Ts) & (sb & Tb) & (c1 & l & El1 & (s1 & T1)) & c2 & l' & El2 & (s2 & T2)).
    destruct (frag_of [n; b] S1) as (k & k1 & rest & G & F & Et & Ek1 & Ek & Hp & Hold).
    assert (rest = [b]) as -> by congruence.
    destruct F.
    destruct (replace_frag_ghost d1 k1 fr_good n p [b] fr_top Hp fr_gt fr_leaf Hold c l1 l2 Ek1 b eq_refl)
      as (d' & E' & I' & L' & K1 & K2 & K3).
    - assert (X : last_error l1 = Some c1) by (rewrite El1; apply last_error_snoc).
      unfold m_first. fold n in Ts. rewrite Ts, X. simpl. rewrite T1. discriminate.
    - unfold m_last. simpl last. rewrite Tb, El2. simpl. rewrite T2. discriminate.
    - exists d'. split; [|split; [exact L'|split; [|auto]]].
      + unfold replace_with_html. rewrite E. cbn [bind negb]. exact E'.
      + apply (children_k _ _ _ _ I'). now rewrite splice_par.
  Qed.

  (** Otherwise the call works. *)
  Lemma no_case : ~ replace_bad d d1 l1 l2 ->
    exists x d' k', replace_with_html (Some bl) c h d = Ok (x, d') /\ Good d' k'.
  Proof.
    intros NB. destruct (u_fragment_order d HR bl h d1 E L) as (tops & S1 & _).
    destruct (frag_of tops S1) as (k & k1 & rest & G & F & Et & Ek1 & Ek & Hp & Hold).
    pose proof (guard_ok _ _ _ _ _ _ _ F NB) as Gd.
    destruct (safe_nj _ _ (replace_html_frag d k bl h d1 k1 rest p c l1 l2 G E F Ek Gd)
                  (nj_replace_html _ c _ _ _ E)) as ([x d'] & Ex & P).
    unfold replace_frag_post in P. destruct P as (_ & P).
    destruct (single_merge _ _ _ _ _) as [[c0 s']|].
    - destruct P as (G' & _). eauto.
    - destruct P as (P1 & P2 & _). destruct rest; [destruct (P1 eq_refl)|destruct P2; [discriminate|]]; eauto.
  Qed.

  Lemma bad_cases : replace_bad d d1 l1 l2 <-> null_case d d1 l1 l2 \/ exists b, ghost_case d d1 l1 l2 b.
  Proof. unfold replace_bad, null_case, ghost_case. cbv zeta. tauto. Qed.

  Lemma is_text_dec m x : is_text_node m x \/ ~ is_text_node m x.
  Proof. unfold is_text_node. destruct (text_of m x); [left; eauto|right; intros [s H]; discriminate]. Qed.

  Lemma text_last_dec l : (exists x l', l = l' ++ [x] /\ is_text_node d1 x) \/ ~ (exists x l', l = l' ++ [x] /\ is_text_node d1 x).
  Proof.
    destruct l as [|a l] using rev_ind; [right; intros (x & l' & H & _); destruct l'; discriminate|].
    destruct (is_text_dec d1 a) as [T|T]; [left; eauto|right; intros (x & l' & H & T')].
    apply app_inj_tail in H as [_ <-]. auto.
  Qed.
  Lemma text_first_dec l : (exists x l', l = x :: l' /\ is_text_node d1 x) \/ ~ (exists x l', l = x :: l' /\ is_text_node d1 x).
  Proof.
    destruct l as [|a l]; [right; intros (x & l' & H & _); discriminate|].
    destruct (is_text_dec d1 a) as [T|T]; [left; eauto|right; intros (x & l' & H & T')]. congruence.
  Qed.

  Lemma bad_dec : replace_bad d d1 l1 l2 \/ ~ replace_bad d d1 l1 l2.
  Proof.
    destruct (u_fragment_order d HR bl h d1 E L) as (tops & S1 & _). fold n in S1.
    assert (U : forall t, sibs d1 n t -> t = tops) by (intros t Ht; eapply sibs_fun; eauto).
    unfold replace_bad. cbv zeta. fold n.
    destruct (is_text_dec d1 n) as [Tn|Tn]; [|right; intros [(_ & H & _)|(b & _ & H & _)]; auto].
    destruct (text_first_dec l2) as [T2|T2]; [|right; intros [(_ & _ & _ & H)|(b & _ & _ & _ & _ & H)]; auto].
    destruct tops as [|a [|b [|x r]]].
    - right. intros [(H & _)|(b & H & _)]; apply U in H; discriminate.
    - destruct (list_eq_dec Nat.eq_dec l1 []) as [E1|E1].
      + left. left. split; [|split; [auto|split; auto]]. enough (a = n) by (subst; auto).
        inversion S1; subst; reflexivity.
      + right. intros [(_ & _ & H & _)|(b & H & _)]; [auto|apply U in H; discriminate].
    - assert (a = n) by (inversion S1; subst; reflexivity). subst a.
      destruct (is_text_dec d1 b) as [Tb|Tb].
      + destruct (text_last_dec l1) as [T1|T1].
        * left. right. exists b. auto.
        * right. intros [(H & _)|(b' & H & _ & _ & H' & _)]; [apply U in H; discriminate|auto].
      + right. intros [(H & _)|(b' & H & _ & H' & _)]; [apply U in H; discriminate|].
        apply U in H. injection H as ->. auto.
    - right. intros [(H & _)|(b' & H & _)]; apply U in H; discriminate.
  Qed.

  Lemma null_iff : replace_with_html (Some bl) c h d = Undef NullDeref <-> null_case d d1 l1 l2.
  Proof.
    split; [|apply null_ok]. intros H. destruct bad_dec as [B|B].
    - apply bad_cases in B as [B|(b & B)]; [exact B|].
      destruct (ghost_ok b B) as (d' & E' & _). congruence.
    - destruct (no_case B) as (x & d' & k' & E' & _). congruence.
  Qed.
  Lemma ghost_iff x d' : replace_with_html (Some bl) c h d = Ok (x, d') ->
    ((exists m, attached d' m /\ kind d' m = Some TRemoved) <-> exists b, ghost_case d d1 l1 l2 b).
  Proof.
    intros E'. split.
    - intros (m & A & K). destruct bad_dec as [B|B].
      + apply bad_cases in B as [B|B]; [|exact B]. apply null_ok in B. congruence.
      + destruct (no_case B) as (x' & d2 & k' & E2 & G2). rewrite E' in E2. injection E2 as <- <-.
        exfalso.
        apply (attached_iff _ _ _ (g_inv _ _ G2)) in A as (q & Hq). unfold kind in K.
        destruct (nth_error (nodes d') m) as [nm|] eqn:En; [|discriminate].
        pose proof (ty_kids _ _ (g_ty _ _ G2) _ _ _ Hq En) as Lv. injection K as K. unfold is_live in Lv.
        rewrite K in Lv. intuition discriminate.
    - intros (b & B). destruct (ghost_ok b B) as (d2 & E2 & _ & C2 & K2 & _). rewrite E' in E2. injection E2 as _ <-.
      exists b. split; [|exact K2]. exists p, (l1 ++ b :: l2). split; [|split; [exact C2|apply in_elt]].
      destruct (reachable_good d HR) as [k G]. pose proof (rep_node_id d d1 L p c l1 l2 Hl k G). unfold node_id in *. lia.
  Qed.
End R.

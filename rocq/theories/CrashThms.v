(** * The theorems about abandoned calls, in terms of the API. *)
From Coq Require Import List NArith Arith Bool Lia.
From Verif Require Import Base TrieModel DomModel ParserModel EditModel ReadModel DomSpec ApiSpec Lemmas TrieProofs
  Tables Inv Surgery Attach Replace Link RegProofs ParseSafe ParseTree ParseLoop Walk AttrProofs EditProofs EditOps EditHtml
  EditUser ApiProofs ReadUser Grow CrashSpec CrashModel CrashAgree CrashDebris CrashWalk CrashRead CrashLink CrashOps CrashHtml
  CrashUser CrashFacts.
Import ListNotations.
Local Open Scope nat_scope.

Lemma kids_parent d k p i : Good d k -> In i (k (Par p)) -> get_parent i d = p.
Proof. intros G I. apply (get_parent_at (g_inv _ _ G) _ _ I). Qed.

Lemma begun_data d k bl o b : Good d k -> valid d bl o -> begun d o b ->
  forall i, 1 <= i < length (nodes d) -> same_answers d b i /\
    (same_content d b i \/ exists n s l c, o = SetText n s /\ children d n l /\ In c l /\
       In i (pre (length (nodes d)) k c) /\ kind b i = Some TRemoved).
Proof.
  intros G V B i Hi. assert (R : b = d -> same_answers d b i /\ same_content d b i).
  { intros ->. split; [apply answers_meta, same_meta_refl|reflexivity]. }
  destruct o; cbn [begun] in B; try (destruct (R B); auto; fail).
  simpl in V. destruct V as [V1 V2].
  assert (Nz : n <> 0) by lia.
  destruct (remove_children_good d k n G Nz) as (b' & E & _ & _ & C & Rm).
  destruct (remove_children_ok d k n (g_inv _ _ G) Nz) as (b2 & E2 & _ & M & _).
  rewrite B in E, E2. injection E as <-. injection E2 as <-.
  split; [now apply answers_meta|].
  destruct (in_dec Nat.eq_dec i (pres (length (nodes d)) k (k (Par n)))) as [I|I]; [|left; auto].
  right. apply pres_in in I as I2. destruct I2 as (c & Ic & I2).
  exists n, s, (k (Par n)), c. split; auto. split; [now apply (kc d k)|]. split; auto.
Qed.

Lemma pst_facts b kb M p d' : Good b kb -> pst b kb M p d' ->
  length (nodes b) <= length (nodes d') /\
  (forall i, 1 <= i < length (nodes b) -> same_answers b d' i /\
     (same_content b d' i \/ (M /\ In i (kb (Par p)) /\ more_text b d' i))) /\
  (forall q m, 1 <= q < length (nodes b) -> (children d' q m <-> children b q m)) /\
  (forall u, dom_walk b 1 u -> dom_walk d' 1 u).
Proof.
  intros G [D|(km & Md & _)].
  - split; [now apply debris_len|]. split; [|split].
    + intros i Hi. split; [eapply dbr_answers; eauto|]. left. eapply dbr_content; eauto. lia.
    + intros q m Hq. apply (dbr_children b d' D kb G). lia.
    + intros u W. now apply (dbr_walk b d' D kb G).
  - split; [apply (md_len _ _ _ _ _ _ Md)|]. split; [|split].
    + intros i Hi. split; [eapply mid_answers; eauto|]. apply (md_data _ _ _ _ _ _ Md i Hi).
    + intros q m Hq. eapply mid_children; eauto.
    + intros u W. eapply mid_walk; eauto. pose proof (inv_len _ _ (g_inv _ _ G)). lia.
Qed.

Section Thms.
Context (d : dom) (bl : bytes) (o : op) (d' : dom) (R : reachable d) (V : valid d bl o) (L : left_with bl o d d').

Lemma t_data : length (nodes d) <= length (nodes d') /\
  forall i, node_id d i -> same_answers d d' i /\
    (same_content d d' i \/
     (html_call o /\ get_parent i d = edited d o /\ more_text d d' i) \/
     (exists n s l c, o = SetText n s /\ children d n l /\ In c l /\ below_eq d c i /\
        kind d' i = Some TRemoved)).
Proof.
  destruct (reachable_good d R) as [k G].
  destruct (crash_main d k bl o d' G V L) as (b & kb & p & B & Gb & Lb & Q).
  assert (Hdata : length (nodes b) <= length (nodes d') /\
    (forall i, 1 <= i < length (nodes b) -> same_answers b d' i /\
     (same_content b d' i \/ (html_call o /\ In i (kb (Par (edited d o))) /\ more_text b d' i)))).
  { destruct Q as [[Q _]|(e & A & N & Z & gone & _ & -> & _ & _ & Q)].
    - apply pst_facts in Q; auto. split; apply Q.
    - split; [eapply lk_len; eauto|]. intros i Hi. split; [eapply lk_answers; eauto|]. eapply lk_content; eauto. }
  destruct Hdata as [H1 H2]. rewrite Lb in *. split; auto. intros i Hi.
  destruct (H2 i Hi) as [A1 A2]. destruct (begun_data d k bl o b G V B i Hi) as [B1 B2].
  split; [eapply answers_trans; eauto|].
  destruct A2 as [A2|(HM & I & T)].
  - destruct B2 as [B2|(n & s & l & c & E1 & E2 & E3 & E4 & E5)].
    + left. eapply same_content_trans; eauto.
    + right. right. exists n, s, l, c. split; auto. split; auto. split; auto. split.
      * destruct (u_preorder d R c) as (m & P & _ & _ & X).
        { apply (kc d k) in E2; auto. subst l. intros ->. now apply (zero_not_in d k (Par n) (g_inv _ _ G)). }
        apply X. apply (preorder_iff d k) in P; [rewrite P; auto| apply G|].
        apply (kc d k) in E2; auto. subst l. intros ->. now apply (zero_not_in d k (Par n) (g_inv _ _ G)).
      * rewrite <- E5. now apply content_parts in A2 as (? & _).
  - right. left. split; auto.
    assert (b = d). { destruct o; try exact B; destruct HM. }
    subst b. split; auto. apply (kids_parent d kb); auto.
Qed.

Lemma t_walk : exists u', dom_walk d' 1 u' /\
  ((exists b, begun d o b /\ dom_walk b 1 u') \/
   (exists e u, run bl o d = Ok e /\ dom_walk e 1 u /\ prefix u' u)).
Proof.
  destruct (reachable_good d R) as [k G].
  destruct (crash_main d k bl o d' G V L) as (b & kb & p & B & Gb & Lb & Q).
  destruct Q as [[Q _]|(e & A & N & Z & gone & E & -> & _ & _ & Q)].
  - pose proof (traverse_dom_tree b kb (g_inv _ _ Gb)) as W.
    apply pst_facts in Q as (_ & _ & _ & Q); auto. eexists. split; [apply Q, W|]. left. eauto.
  - destruct (lk_walk _ _ _ _ _ _ _ _ _ _ Q) as (u & u' & W1 & W2 & P).
    exists u'. split; auto. right. eauto.
Qed.

Lemma t_others b : begun d o b -> forall q, node_id d q -> q <> edited d o ->
  forall m, children d' q m <-> children b q m.
Proof.
  destruct (reachable_good d R) as [k G].
  destruct (crash_main d k bl o d' G V L) as (b' & kb & p & B & Gb & Lb & Q).
  intros B' q Hq Nq m.
  assert (b = b'). { destruct o; cbn [begun] in *; congruence. } subst b'.
  unfold node_id in Hq. rewrite <- Lb in Hq.
  destruct Q as [[Q _]|(e & A & N & Z & gone & E & -> & _ & _ & Q)].
  - apply pst_facts in Q as (_ & _ & Q & _); auto.
  - eapply lk_children; eauto.
Qed.

Lemma t_edited b l : begun d o b -> node_id d (edited d o) -> children b (edited d o) l ->
  exists m, children d' (edited d o) m /\
   (m = l \/ exists e me, run bl o d = Ok e /\ children e (edited d o) me /\ (m = me \/ cut_off d o l me m)).
Proof.
  destruct (reachable_good d R) as [k G].
  destruct (crash_main d k bl o d' G V L) as (b' & kb & p & B & Gb & Lb & Q).
  intros B' Hq C.
  assert (b = b'). { destruct o; cbn [begun] in *; congruence. } subst b'.
  unfold node_id in Hq. rewrite <- Lb in Hq.
  destruct Q as [[Q _]|(e & A & N & Z & gone & E & -> & _ & P & Q)].
  - apply pst_facts in Q as (_ & _ & Q & _); auto. exists l. split; auto. now apply Q.
  - destruct (lk_edited _ _ _ _ _ _ _ _ _ _ Q) as [Ce [S|S]]; (eexists; split; [exact S|]); right.
    + exists e. eauto.
    + exists e, (A ++ N ++ Z). split; auto. split; auto.
      destruct (li_new _ _ _ _ _ _ _ _ _ _ Q) as [N1 N2]. rewrite Lb in N2.
      apply (kc b kb) in C; auto.
      destruct o; cbn [place edited cut_off] in *; try easy;
        try (destruct P as (_ & -> & -> & _); left; now rewrite app_nil_r);
        try (right; destruct P as (_ & -> & -> & _); subst l; split; [auto|split; auto]).
      * right. destruct P as (P & _). exists A, N, Z. split; auto. split; auto. split; [congruence|]. split; auto.
        now rewrite app_assoc.
      * destruct P as (_ & _ & -> & -> & _). left. now rewrite app_nil_r.
Qed.

Lemma t_one_step : one_step o ->
  (forall i, node_id d i -> same_content d d' i /\ same_answers d d' i) /\
  (forall q m, node_id d q -> (children d' q m <-> children d q m)) /\
  (forall u, dom_walk d' 1 u <-> dom_walk d 1 u).
Proof.
  intro O. destruct (reachable_good d R) as [k G].
  destruct (crash_main d k bl o d' G V L) as (b & kb & p & B & Gb & Lb & Q).
  assert (b = d). { destruct o; try exact B; destruct O. } subst b.
  destruct Q as [[Q _]|(e & A & N & Z & gone & E & -> & _ & P & _)]; [|destruct o; cbn in *; easy].
  apply pst_facts in Q as (_ & Q1 & Q2 & Q3); auto. split; [|split; auto].
  - intros i Hi. destruct (Q1 i Hi) as [A1 [A2|(HM & _)]]; auto. destruct o; cbn in *; easy.
  - intro u. split; auto. intro W. pose proof (traverse_dom_tree d kb (g_inv _ _ Gb)) as W0.
    rewrite (dom_walk_fun _ _ _ _ W (Q3 _ W0)). auto.
Qed.
End Thms.

(** ** Losing the old children *)
Lemma in_bind_l {A B} (x : ab A) (f : A -> ab B) y : In y (fst x) -> In y (fst (a_bind x f)).
Proof. unfold a_bind. destruct (snd x); cbn [fst]; auto. intro. apply in_or_app; auto. Qed.
Lemma in_bind_r {A B} (x : ab A) (f : A -> ab B) a y : snd x = Ok a -> In y (fst (f a)) -> In y (fst (a_bind x f)).
Proof. unfold a_bind. intros ->. cbn [fst]. intro. apply in_or_app; auto. Qed.
Lemma find_idx_upd {A} (f : A -> bool) y : forall l i, find_idx f l = Some i -> f y = true -> find_idx f (upd l i y) = Some i.
Proof.
  induction l as [|a l IH]; intros i E H; [discriminate|]. cbn [find_idx] in E. destruct (f a) eqn:Ea.
  - injection E as <-. cbn. now rewrite H.
  - destruct (find_idx f l) as [j|]; [|discriminate]. injection E as <-. cbn. now rewrite Ea, (IH j).
Qed.
Lemma prepend_loses d : reachable d -> forall bl p dn c l e,
  node_id d p -> children d p (c :: l) -> run bl (PrependDoc p dn) d = Ok e ->
  exists d', left_with bl (PrependDoc p dn) d d' /\ children d' p [length (nodes d)].
Proof.
  intros R bl p dn c l e Hp C E. destruct (reachable_good d R) as [k G].
  rewrite <- c_run_agrees in E. cbn [c_run] in E. unfold left_with. cbn [c_run].
  unfold c_prepend_document_node in *.
  rewrite !snd_bind in E. apply bind_ok in E as ([x y] & E & _).
  apply bind_ok in E as ([x1 d1] & E1 & _). clear x y.
  destruct (elem_made d k G dn x1 d1 E1) as [A D].
  destruct (created d k G d1 x1 False p A D) as (Md & F & B & Nz).
  assert (Hx : x1 = length (nodes d)).
  { destruct (new_facts d k G d1 x1 A) as (_ & _ & _ & _ & _ & _ & Qn). auto. }
  set (f := floated k x1) in *. pose proof (md_good _ _ _ _ _ _ Md) as G1. pose proof (g_inv _ _ G1) as I1.
  apply (kc d k) in C; auto.
  assert (Ek : f (Par p) = c :: l). { rewrite (md_kids _ _ _ _ _ _ Md); auto. apply Hp. }
  pose proof (first_at I1 p ltac:(destruct Hp; lia)) as HF. rewrite Ek in HF. simpl in HF.
  destruct HF as (i & Ei & Ni).
  exists (set_firsts d1 (upd (firsts d1) i (p, x1))). split.
  - apply in_bind_l. eapply in_bind_r; [exact E1|]. cbv beta iota. destruct (Nat.eqb_spec x1 0); [congruence|].
    apply in_bind_l. unfold c_prepend_refs. rewrite Ei. rewrite (at_idx_nth _ _ _ Ni). cbn [fst snd].
    eapply in_bind_r.
    + rewrite (last_next_nexts _ d1) by reflexivity. exact (get_last_next_at I1 (Flo x1) [] x1 [] F).
    + apply in_bind_l. cbn. auto.
  - unfold children. 
    assert (Ef : get_first_child p (set_firsts d1 (upd (firsts d1) i (p, x1))) = x1).
    { unfold get_first_child, first_idx. cbn [firsts set_firsts].
      rewrite (find_idx_upd _ _ _ _ Ei) by (cbn; apply Nat.eqb_refl).
      unfold at_idx. rewrite (nth_error_nth _ _ _ (upd_nth_eq _ _ _ (nth_lt _ _ _ Ni))). reflexivity. }
    rewrite Ef, Hx. constructor; [lia|]. rewrite <- Hx.
    assert (En : get_next x1 (set_firsts d1 (upd (firsts d1) i (p, x1))) = 0).
    { transitivity (get_next x1 d1); [reflexivity|]. now rewrite (get_next_at I1 (Flo x1) [] x1 [] F). }
    rewrite En. constructor.
Qed.
Lemma set_text_loses d : reachable d -> forall bl n s, node_id d n ->
  exists d', left_with bl (SetText n s) d d' /\ children d' n [].
Proof.
  intros R bl n s Hn. destruct (reachable_good d R) as [k G].
  destruct (set_text_j d k G n s Hn) as (b & kb & E & Gb & _ & He & _).
  exists b. split; [|now apply (kc b kb)].
  unfold left_with. cbn [c_run]. unfold c_set_text_content. eapply in_bind_r; [exact E|].
  apply in_bind_l. unfold c_parse_text_element. apply in_bind_l. unfold c_create_node.
  destruct (_ <=? _)%N; cbn; auto.
Qed.

(** * Reading a document left by an abandoned call. *)
From Coq Require Import List NArith Arith Bool Lia.
From Verif Require Import Base TrieModel DomModel ParserModel EditModel ReadModel DomSpec ApiSpec Lemmas TrieProofs
  Tables Inv Surgery Attach Replace Link RegProofs ParseSafe ParseTree ParseLoop Walk AttrProofs EditProofs EditOps EditHtml
  EditUser ApiProofs Grow CrashSpec CrashModel CrashAgree CrashDebris CrashWalk CrashRead CrashLink CrashOps CrashHtml CrashUser.
Import ListNotations.
Local Open Scope nat_scope.

(** ** Attribute questions *)
Lemma bool_ans (r r' : bool) (P : Prop) : (r = true <-> P) -> (r' = true <-> P) -> r' = r.
Proof. destruct r, r'; intuition congruence. Qed.
Lemma answers_attrs d d' i : RegInv d -> RegInv d' -> i <> 0 ->
  bool_attrs d' i = bool_attrs d i -> attrs d' i = attrs d i -> same_answers d d' i.
Proof.
  intros R R' Hi Eb Ea. repeat split; intros.
  - destruct (has_bool_prop_ok d R i Hi b) as (r & -> & H). destruct (has_bool_prop_ok d' R' i Hi b) as (r' & -> & H').
    f_equal. rewrite Eb in H'. eapply bool_ans; eauto.
  - destruct (has_prop_key_ok d R i Hi k) as (r & -> & H). destruct (has_prop_key_ok d' R' i Hi k) as (r' & -> & H').
    f_equal. rewrite Ea in H'. eapply bool_ans; eauto.
  - destruct (has_prop_value_ok d R i Hi v) as (r & -> & H). destruct (has_prop_value_ok d' R' i Hi v) as (r' & -> & H').
    f_equal. rewrite Ea in H'. eapply bool_ans; eauto.
  - destruct (has_property_ok d R i Hi k v) as (r & -> & H). destruct (has_property_ok d' R' i Hi k v) as (r' & -> & H').
    f_equal. rewrite Ea in H'. eapply bool_ans; eauto.
  - rewrite !get_value_ok by auto. now rewrite Ea.
Qed.
Lemma answers_data d d' i : same_data d d' -> same_answers d d' i.
Proof. intros ->. repeat split; intros; reflexivity. Qed.
Lemma answers_meta d d' i : same_meta d d' -> same_answers d d' i.
Proof. intros ->. repeat split; intros; reflexivity. Qed.
Lemma answers_trans d1 d2 d3 i : same_answers d1 d2 i -> same_answers d2 d3 i -> same_answers d1 d3 i.
Proof.
  intros (A1 & A2 & A3 & A4 & A5) (B1 & B2 & B3 & B4 & B5).
  repeat split; intros; [rewrite B1; apply A1|rewrite B2; apply A2|rewrite B3; apply A3|rewrite B4; apply A4|rewrite B5; apply A5].
Qed.

Section M.
Context (M : Prop) (p : nat) (d : dom) (k : kids) (G : Good d k) (dm : dom) (km : kids) (H : midst M p d k dm km).
Notation n := (length (nodes d)).
Lemma mid_answers i : 1 <= i < n -> same_answers d dm i.
Proof.
  intro Hi. apply answers_attrs; [apply G|apply (md_good _ _ _ _ _ _ H)|lia| |].
  - destruct (md_data _ _ _ _ _ _ H i Hi) as [E|(_ & _ & old & s & _ & [E|E])].
    + now apply content_parts in E as (_ & _ & _ & E & _).
    + apply E.
    + apply E.
  - destruct (md_data _ _ _ _ _ _ H i Hi) as [E|(_ & _ & old & s & _ & [E|E])].
    + now apply content_parts in E as (_ & _ & _ & _ & E).
    + apply E.
    + apply E.
Qed.
Lemma mid_children q m : 1 <= q < n -> (children dm q m <-> children d q m).
Proof.
  intro Hq. rewrite (kc dm km) by apply (md_good _ _ _ _ _ _ H). rewrite (kc d k) by auto.
  now rewrite (md_kids _ _ _ _ _ _ H) by lia.
Qed.
Lemma mid_walk l : 1 < n -> dom_walk d 1 l -> dom_walk dm 1 l.
Proof.
  intros Hn Wk. pose proof (traverse_dom_tree d k (g_inv _ _ G)) as W0.
  rewrite (dom_walk_fun _ _ _ _ Wk W0).
  pose proof (traverse_dom_tree dm km (g_inv _ _ (md_good _ _ _ _ _ _ H))) as Wm.
  pose proof (inv_kw _ _ (g_inv _ _ G)) as KW.
  rewrite (md_kids _ _ _ _ _ _ H) in Wm by auto.
  replace (pres n k (k (Par 1))) with (pres (length (nodes dm)) km (k (Par 1))); auto.
  unfold pres. apply flat_map_ext_in. intros x I. apply pre_old; auto.
  - apply (inv_kw _ _ (g_inv _ _ (md_good _ _ _ _ _ _ H))).
  - apply (md_len _ _ _ _ _ _ H).
  - apply (md_kids _ _ _ _ _ _ H).
  - apply (kw_bound _ _ KW) in I. lia.
Qed.
End M.

Section L.
Context (M : Prop) (d : dom) (k : kids) (G : Good d k) (p : nat) (A N Z gone : list nat) (e d' : dom)
  (H : links M d k p A N Z gone e d').
Notation n := (length (nodes d)).
Notation l := (last N 0).
Lemma lk_content i : 1 <= i < n -> same_content d d' i \/ (M /\ In i (k (Par p)) /\ more_text d d' i).
Proof.
  intro Hi. destruct (li_mid _ _ _ _ _ _ _ _ _ _ H) as (dm & km & Md & Sd).
  destruct (md_data _ _ _ _ _ _ Md i Hi) as [E|(HM & I & old & s & T & R)].
  - left. eapply same_content_trans; [exact E|]. now apply same_data_content.
  - right. split; auto. split; auto. exists old, s. split; auto.
    destruct R; [left|right]; (eapply retexted_trans; [eauto|now apply same_data_content]).
Qed.
Lemma lk_answers i : 1 <= i < n -> same_answers d d' i.
Proof.
  intro Hi. destruct (li_mid _ _ _ _ _ _ _ _ _ _ H) as (dm & km & Md & Sd).
  eapply answers_trans; [eapply mid_answers; eauto|now apply answers_data].
Qed.
Lemma lk_len : n <= length (nodes d').
Proof.
  destruct (li_mid _ _ _ _ _ _ _ _ _ _ H) as (dm & km & Md & Sd).
  rewrite Sd. simpl. apply (md_len _ _ _ _ _ _ Md).
Qed.

(** A child list, read in [d']. *)
Lemma cut_sibs : forall m c, sibs e c m -> (forall x, In x m -> ~ In x gone) ->
  sibs d' c m \/ exists m1 m2, m = m1 ++ l :: m2 /\ sibs d' c (m1 ++ [l]).
Proof.
  pose proof (li_lnk _ _ _ _ _ _ _ _ _ _ H) as Q.
  induction m as [|x m IH]; intros c S Hg; inversion S; subst.
  - left. constructor.
  - destruct (ln_next _ _ _ _ Q x) as [[En _]|(El & En & _)].
    { apply Hg. simpl; auto. }
    + destruct (IH _ H4) as [S2|(m1 & m2 & -> & S2)].
      { intros y Iy. apply Hg. simpl; auto. }
      * left. constructor; auto. now rewrite En.
      * right. exists (x :: m1), m2. split; auto. simpl. constructor; auto. now rewrite En.
    + right. exists [], m. split; [simpl; congruence|]. simpl. subst x. constructor; auto. rewrite En. constructor.
Qed.
Lemma lk_first c : get_first_child c d' = get_first_child c e.
Proof. apply (ln_first _ _ _ _ (li_lnk _ _ _ _ _ _ _ _ _ _ H)). Qed.
Lemma l_new : In l N /\ n <= l.
Proof.
  destruct (li_new _ _ _ _ _ _ _ _ _ _ H) as [Hn Hb].
  assert (In l N); [|split; auto].
  destruct (exists_last Hn) as (m & z & ->). rewrite List.last_last. apply in_or_app; simpl; auto.
Qed.
Lemma lk_children q m : 1 <= q < n -> q <> p -> (children d' q m <-> children d q m).
Proof.
  intros Hq Np. destruct (li_end _ _ _ _ _ _ _ _ _ _ H) as (ke & Ge & _ & Kq & Kg).
  pose proof (inv_kw _ _ (g_inv _ _ G)) as W.
  assert (C : children d' q (k (Par q))).
  { assert (Ce : children e q (k (Par q))). { apply (kc e ke); auto. now rewrite Kq by lia. }
    unfold children in *. rewrite lk_first.
    destruct (cut_sibs _ _ Ce) as [S|(m1 & m2 & E & _)]; auto.
    { intros x I. apply (Kg (Par q)). now rewrite Kq by lia. }
    exfalso. assert (I : In l (k (Par q))) by (rewrite E; apply in_elt).
    apply (kw_bound _ _ W) in I. pose proof l_new. lia. }
  rewrite (kc d k) by auto. split.
  - intro X. eapply sibs_fun; eauto.
  - intros ->. auto.
Qed.
Lemma lk_edited : children e p (A ++ N ++ Z) /\ (children d' p (A ++ N ++ Z) \/ children d' p (A ++ N)).
Proof.
  destruct (li_end _ _ _ _ _ _ _ _ _ _ H) as (ke & Ge & Kp & Kq & Kg).
  assert (Ce : children e p (A ++ N ++ Z)). { apply (kc e ke); auto. }
  split; auto. unfold children in Ce |- *. rewrite lk_first.
  destruct (cut_sibs _ _ Ce) as [S|(m1 & m2 & E & S)]; auto.
  { intros x I. apply (Kg (Par p)). now rewrite Kp. }
  right. destruct (li_new _ _ _ _ _ _ _ _ _ _ H) as [Hn _].
  destruct (exists_last Hn) as (N0 & z & EN).
  assert (El : l = z) by (rewrite EN; apply List.last_last). rewrite El in *.
  pose proof (kw_nodup _ _ (inv_kw _ _ (g_inv _ _ Ge)) (Par p)) as ND. rewrite Kp in ND.
  assert (m1 = A ++ N0).
  { rewrite EN in E, ND. rewrite <- app_assoc in E, ND. simpl in E, ND.
    rewrite app_assoc in E, ND. clear -E ND.
    revert m1 E. generalize (A ++ N0) ND. clear. induction l as [|a u IH]; intros ND m1 E.
    - simpl in *. destruct m1 as [|b m1]; auto. simpl in E. injection E as <- E.
      apply NoDup_cons_iff in ND as [ND _]. elim ND. rewrite E. apply in_elt.
    - destruct m1 as [|b m1]; simpl in *.
      + injection E as -> E. apply NoDup_cons_iff in ND as [ND _]. elim ND. apply in_elt.
      + injection E as <- E. apply NoDup_cons_iff in ND as [_ ND]. f_equal. auto. }
  subst m1. rewrite EN. now rewrite app_assoc.
Qed.

Lemma lk_walk : exists u u', dom_walk e 1 u /\ dom_walk d' 1 u' /\ prefix u' u.
Proof.
  destruct (li_end _ _ _ _ _ _ _ _ _ _ H) as (ke & Ge & Kp & Kq & Kg).
  pose proof (g_inv _ _ Ge) as Ie. pose proof (inv_kw _ _ Ie) as W.
  pose proof (li_lnk _ _ _ _ _ _ _ _ _ _ H) as Q.
  pose proof (traverse_dom_tree e ke Ie) as We. set (u := pres _ _ _) in *.
  set (V := fun c => In c (pre (length (nodes e)) ke 1)).
  assert (Vg : forall c, V c -> ~ In c gone).
  { intros c Vc. destruct (pre_parent _ _ _ _ W Vc) as [->|(q & I & _)].
    - apply (li_one _ _ _ _ _ _ _ _ _ _ H).
    - eapply Kg; eauto. }
  assert (Vz : forall c, V c -> c <> 0). { intros c Vc. apply (pre_ge _ _ _ _ W) in Vc. lia. }
  assert (P1 : get_parent 1 e = 0).
  { apply get_parent_none. intros q I. apply (pc_nz _ _ _ (inv_pchild _ _ Ie)) in I. lia. }
  assert (N1 : get_next 1 e = 0).
  { rewrite (get_next_none Ie 1); auto. intros q. apply (one_not_in e ke q Ie). }
  destruct (walk_cmp d' e V 0) with (c := 1) (l := u) as (u' & W' & Pf); auto.
  - intros c Vc _. destruct (pre_parent _ _ _ _ W Vc) as [->|(q & I & Vq)]; auto.
    right. now rewrite (get_parent_at Ie _ _ I).
  - intros c Vc _. unfold agree. destruct (ln_next _ _ _ _ Q c (Vg c Vc)) as [[En [Ep|Ep]]|(_ & En & Ep)]; auto.
  - intros c Vc _. destruct (pre_parent _ _ _ _ W Vc) as [->|(q & I & Vq)]; auto.
    apply in_split in I as (m1 & m2 & E). rewrite (get_next_at Ie _ _ _ _ E).
    destruct m2 as [|y m2]; auto. right. apply (pre_closed _ _ _ q); auto. rewrite E. apply in_or_app. simpl; auto.
  - apply (ln_ord _ _ _ _ Q).
  - intros c _. apply lk_first.
  - intros c Vc. rewrite (get_first_child_at Ie) by (now apply Vz).
    destruct (ke (Par c)) as [|y m] eqn:E; auto. right. apply (pre_closed _ _ _ c); auto. rewrite E. simpl; auto.
  - apply pre_self. auto.
  - exists u, u'. auto.
Qed.
End L.

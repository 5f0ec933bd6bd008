(** * Effect of the linking primitives on the structural invariant. *)
From Coq Require Import List NArith Arith Bool Lia.
From Verif Require Import Base TrieModel DomModel ParserModel EditModel Lemmas Tables Inv.
Import ListNotations.
Local Open Scope nat_scope.

(** Everything but the node array and the three navigation tables is equal. *)
Definition same_meta (d d' : dom) : Prop :=
  d' = mkDom (nodes d') (firsts d') (pchilds d') (nexts d') (bprops d) (props d)
         (tag_reg d) (bool_reg d) (key_reg d) (val_reg d) (tag_map d)
         (bool_map d) (key_map d) (val_map d).

Lemma same_meta_refl d : same_meta d d.
Proof. destruct d; reflexivity. Qed.
Lemma same_meta_trans a b c : same_meta a b -> same_meta b c -> same_meta a c.
Proof. unfold same_meta. intros -> ->. reflexivity. Qed.
Lemma same_data_meta a b : same_data a b -> same_meta a b.
Proof. unfold same_data, same_meta. intros ->. reflexivity. Qed.
Lemma same_data_nodes a b : same_data a b -> nodes b = nodes a.
Proof. unfold same_data. intros ->. reflexivity. Qed.

Lemma in_upd {A} (l : list A) i z x : In x (upd l i z) -> x = z \/ In x l.
Proof.
  revert i; induction l as [|a l IH]; destruct i; simpl; intros H; auto.
  - destruct H as [->|H]; auto.
  - destruct H as [->|H]; auto. apply IH in H. tauto.
Qed.

Lemma in_upd_keep {A} (l : list A) i y z x :
  In x l -> nth_error l i = Some y -> x <> y -> In x (upd l i z).
Proof.
  intros Hi Hn Hne. destruct (upd_split l i y z Hn) as (l1 & l2 & -> & _ & ->).
  apply in_app_or in Hi as [H|[H|H]]; apply in_or_app; simpl; auto. congruence.
Qed.

Lemma in_upd_new {A} (l : list A) i y z : nth_error l i = Some y -> In z (upd l i z).
Proof.
  intros Hn. destruct (upd_split l i y z Hn) as (l1 & l2 & -> & _ & ->).
  apply in_elt.
Qed.

Lemma upd_nth {A} (l : list A) i x j :
  nth_error (upd l i x) j
  = if j =? i then match nth_error l i with Some _ => Some x | None => None end
    else nth_error l j.
Proof.
  destruct (Nat.eqb_spec j i) as [->|Hne].
  - destruct (nth_error l i) eqn:E.
    + apply upd_nth_eq. apply nth_error_Some. congruence.
    + apply nth_error_None. rewrite upd_length. now apply nth_error_None.
  - apply upd_nth_neq. auto.
Qed.

Lemma Rn_upk k q l a b :
  Rn (upk k q l) a b <-> adj a b l \/ exists q', q' <> q /\ adj a b (k q').
Proof.
  unfold Rn. split.
  - intros [q' H]. destruct (key_dec q q') as [<-|Hne].
    + rewrite upk_eq in H. auto.
    + rewrite upk_neq in H by auto. right. exists q'. auto.
  - intros [H|(q' & Hne & H)].
    + exists q. now rewrite upk_eq.
    + exists q'. now rewrite upk_neq by auto.
Qed.

Lemma Rn_split k q a b :
  Rn k a b <-> adj a b (k q) \/ exists q', q' <> q /\ adj a b (k q').
Proof.
  unfold Rn. split.
  - intros [q' H]. destruct (key_dec q' q) as [->|Hne]; eauto.
  - intros [H|(q' & _ & H)]; eauto.
Qed.

(** ** Well-formedness of child lists under surgery *)

(** Shrinking lists. *)
Lemma kw_sub n k k' :
  kw n k -> (forall q, NoDup (k' q)) -> (forall q c, In c (k' q) -> In c (k q)) ->
  kw n k'.
Proof.
  intros W Hn Hs. constructor; auto.
  - intros q q' c H H'. eapply (kw_disj _ _ W); eauto.
  - intros q c H. eapply (kw_bound _ _ W); eauto.
  - intros p c H. eapply (kw_order _ _ W); eauto.
  - intros f c H. eapply (kw_flo _ _ W); eauto.
Qed.

Lemma kw_mono n m k : kw n k -> n <= m -> kw m k.
Proof.
  intros [H1 H2 H3 H4 H5] Hm. constructor; auto.
  intros q c H. apply H3 in H. lia.
Qed.

(** Adding nodes [m] that are in no other list to the list of [q]. *)
Lemma kw_add n k q l :
  kw n k -> NoDup l ->
  (forall c, In c l -> In c (k q) \/
     ((forall q', ~ In c (k q')) /\ 2 <= c < n /\
      match q with Par p => 1 <= p < c | Flo f => f <= c end)) ->
  kw n (upk k q l).
Proof.
  intros W Hn Hl.
  assert (Hin : forall q' c, In c (upk k q l q') ->
                In c (k q') \/ (q' = q /\ In c l /\ (forall q'', ~ In c (k q'')) /\
                 2 <= c < n /\
                 match q with Par p => 1 <= p < c | Flo f => f <= c end)).
  { intros q' c. destruct (key_dec q q') as [<-|Hne].
    - rewrite upk_eq. intros H. destruct (Hl c H) as [?|(? & ? & ?)]; auto 10.
    - rewrite upk_neq by auto. auto. }
  constructor.
  - intros q'. destruct (key_dec q q') as [<-|Hne].
    + now rewrite upk_eq.
    + rewrite upk_neq by auto. apply (kw_nodup _ _ W).
  - intros q1 q2 c H1 H2. apply Hin in H1, H2.
    destruct H1 as [H1|(-> & _ & H1 & _)], H2 as [H2|(-> & _ & H2 & _)]; auto.
    + eapply (kw_disj _ _ W); eauto.
    + destruct (H2 q1 H1).
    + destruct (H1 q2 H2).
  - intros q' c H. apply Hin in H as [H|(_ & _ & _ & H & _)]; auto.
    eapply (kw_bound _ _ W); eauto.
  - intros p c H. apply Hin in H as [H|(<- & _ & _ & _ & H)]; auto.
    eapply (kw_order _ _ W); eauto.
  - intros f c H. apply Hin in H as [H|(<- & _ & _ & _ & H)]; auto.
    eapply (kw_flo _ _ W); eauto.
Qed.

(** ** Filtering out one node *)
Definition without (c : nat) (l : list nat) : list nat :=
  filter (fun x => negb (x =? c)) l.

Lemma without_none c l : ~ In c l -> without c l = l.
Proof.
  induction l as [|x l IH]; simpl; intros H; auto.
  destruct (Nat.eqb_spec x c); simpl; [subst; tauto|]. rewrite IH; auto.
Qed.

Lemma without_split c l1 l2 :
  NoDup (l1 ++ c :: l2) -> without c (l1 ++ c :: l2) = l1 ++ l2.
Proof.
  intros H. apply NoDup_remove_2 in H as Hn. unfold without.
  rewrite filter_app. simpl. rewrite Nat.eqb_refl. simpl.
  fold (without c l1). fold (without c l2).
  rewrite !without_none; auto; intros Hi; apply Hn, in_or_app; auto.
Qed.

Lemma without_in c x l : In x (without c l) <-> In x l /\ x <> c.
Proof.
  unfold without. rewrite filter_In.
  destruct (Nat.eqb_spec x c); simpl; intuition congruence.
Qed.

Lemma without_upk k q l1 c l2 n :
  kw n k -> k q = l1 ++ c :: l2 ->
  kext (fun q' => without c (k q')) (upk k q (l1 ++ l2)).
Proof.
  intros W E q'. destruct (key_dec q q') as [<-|Hne].
  - rewrite upk_eq, E. apply without_split. rewrite <- E. apply (kw_nodup _ _ W).
  - rewrite upk_neq by auto. apply without_none. intros H. apply Hne.
    eapply (kw_disj _ _ W); eauto. rewrite E. apply in_elt.
Qed.

(** ** Unlinking a node *)
Section Unlink.
  Context (d : dom) (k : kids) (I : Inv d k).
  Let W := inv_kw _ _ I.

  Lemma Rn_unlink q l1 c l2 a b :
    k q = l1 ++ c :: l2 ->
    Rn (upk k q (l1 ++ l2)) a b <->
    (Rn k a b /\ a <> c /\ b <> c) \/ (last_error l1 = Some a /\ hd_error l2 = Some b).
  Proof.
    intros E. rewrite Rn_upk, (Rn_split k q a b), E, !adj_app. cbn [adj].
    pose proof (kw_nodup _ _ W q) as Hn. rewrite E in Hn.
    apply NoDup_remove_2 in Hn.
    assert (N1 : forall x, In x l1 -> x <> c)
      by (intros x Hx ->; apply Hn, in_or_app; auto).
    assert (N2 : forall x, In x l2 -> x <> c)
      by (intros x Hx ->; apply Hn, in_or_app; auto).
    assert (N3 : forall q' x, q' <> q -> In x (k q') -> x <> c).
    { intros q' x Hq Hx ->. apply Hq. eapply (kw_disj _ _ W); eauto.
      rewrite E. apply in_elt. }
    split.
    - intros [[H|[H|H]]|(q' & Hq & H)]; auto.
      + left. apply adj_in in H as Hi. split; [tauto|].
        split; apply N1; tauto.
      + left. apply adj_in in H as Hi. split; [tauto|].
        split; apply N2; tauto.
      + left. apply adj_in in H as Hi. split; [right; eauto|].
        split; apply (N3 q'); tauto.
    - intros [([[H|[[H|H]|H]]|H] & Ha & Hb)|H]; auto.
      + destruct H as [-> _]. congruence.
      + destruct H as [_ H]. simpl in H. congruence.
  Qed.

  Lemma pc_unlink i p c q l1 l2 :
    k q = l1 ++ c :: l2 -> q = Par p ->
    nth_error (pchilds d) i = Some (p, c) ->
    pc_ok (length (nodes d)) (upd (pchilds d) i (0, 0)) (upk k q (l1 ++ l2)).
  Proof.
    intros E -> Hi. destruct (inv_pchild _ _ I) as [P1 P2 P3 P4].
    pose proof (kw_nodup _ _ W (Par p)) as Hn. rewrite E in Hn.
    apply NoDup_remove_2 in Hn.
    assert (Hsub : forall q' x, In x (upk k (Par p) (l1 ++ l2) q') ->
                     In x (k q') /\ x <> c).
    { intros q' x. destruct (key_dec (Par p) q') as [<-|Hne].
      - rewrite upk_eq, E. intros H. split.
        + apply in_app_or in H as [?|?]; apply in_or_app; simpl; auto.
        + intros ->. auto.
      - rewrite upk_neq by auto. intros H. split; auto. intros ->. apply Hne.
        eapply (kw_disj _ _ W); eauto. rewrite E. apply in_elt. }
    constructor.
    - intros a b H. apply Hsub in H as [H Hc].
      eapply in_upd_keep; [apply P1; exact H|exact Hi|congruence].
    - intros a b H. apply in_upd in H as [H|H]; auto.
      injection H as -> ->. auto.
    - intros a a' b H H'. apply in_upd in H. apply in_upd in H'.
      destruct H as [H|H], H' as [H'|H'].
      + congruence.
      + injection H as -> ->. apply P2 in H'. lia.
      + injection H' as -> ->. apply P2 in H. lia.
      + eapply P3; eauto.
    - intros f a x H H'. apply Hsub in H as [H Hc].
      apply in_upd in H' as [H'|H'].
      + injection H' as -> ->. apply (kw_bound _ _ W) in H. lia.
      + eapply P4; eauto.
  Qed.

  Lemma pc_unlink_flo f c l1 l2 :
    k (Flo f) = l1 ++ c :: l2 ->
    pc_ok (length (nodes d)) (pchilds d) (upk k (Flo f) (l1 ++ l2)).
  Proof.
    intros E. destruct (inv_pchild _ _ I) as [P1 P2 P3 P4]. constructor; auto.
    intros f' a x H. destruct (Nat.eq_dec f f') as [<-|Hne].
    - rewrite upk_eq in H. apply (P4 f). rewrite E.
      apply in_app_or in H as [?|?]; apply in_or_app; simpl; auto.
    - rewrite upk_neq in H by congruence. eauto.
  Qed.

  Lemma kw_unlink q l1 c l2 n :
    kw n k -> k q = l1 ++ c :: l2 -> kw n (upk k q (l1 ++ l2)).
  Proof.
    intros W' E. apply kw_add; auto.
    - pose proof (kw_nodup _ _ W q) as Hn. rewrite E in Hn.
      eapply NoDup_remove_1; eauto.
    - intros x Hx. left. rewrite E.
      apply in_app_or in Hx as [?|?]; apply in_or_app; simpl; auto.
  Qed.
End Unlink.

(** Replacing one node record keeps the invariant when the id is kept. *)
Lemma Inv_set_node d k c n :
  Inv d k -> n_id n = c -> Inv (set_nodes d (upd (nodes d) c n)) k.
Proof.
  intros [H1 H2 H3 H4 H5 H6] Hn. constructor; simpl; auto;
    try (rewrite upd_length; auto).
  intros i m. rewrite upd_nth. destruct (Nat.eqb_spec i c) as [->|].
  - destruct (nth_error (nodes d) c); intros E; [|discriminate]. congruence.
  - apply H1.
Qed.

Definition removed_node (c : nat) : node := mkNode c TRemoved (PTag 0).

Lemma unlink_ok d k q l1 c l2 :
  Inv d k -> k q = l1 ++ c :: l2 ->
  exists d', unlink_node c d = Ok d' /\
    Inv d' (upk k q (l1 ++ l2)) /\ same_meta d d' /\
    nodes d' = upd (nodes d) c (removed_node c) /\
    incl (pchilds d') ((0, 0) :: pchilds d).
Proof.
  intros I E. pose proof (inv_kw _ _ I) as W.
  assert (Hc : In c (k q)) by (rewrite E; apply in_elt).
  pose proof (kw_bound _ _ W _ _ Hc) as Hb.
  destruct (nth_error (nodes d) c) as [n|] eqn:Hn.
  2: { apply nth_error_None in Hn. lia. }
  assert (Hid : n_id n = c) by (apply (inv_ids _ _ I); auto).
  unfold unlink_node, get_node. rewrite Hn. cbn [bind]. rewrite Hid.
  pose proof (next_at I q l1 c l2 E) as HN.
  pose proof (prev_at I q l1 c l2 E) as HP.
  pose proof (kw_nodup _ _ W q) as Hnd. rewrite E in Hnd.
  (* the next table *)
  set (nx := next_idx c d) in *. set (pv := prev_idx c d) in *.
  set (d1 := match pv with
             | None => d
             | Some i => match nx with
                         | None => set_nexts d (upd (nexts d) i (0, 0))
                         | Some j => set_nexts d (upd (nexts d) i
                              (fst (at_idx (nexts d) i), snd (at_idx (nexts d) j)))
                         end
             end).
  assert (HT : exists d1n,
    d1 = set_nexts d d1n /\
    (forall j, nx = Some j -> at_idx d1n j = at_idx (nexts d) j) /\
    tab_ok (match nx with None => d1n | Some j => upd d1n j (0, 0) end)
           (Rn (upk k q (l1 ++ l2)))).
  { destruct (last_error l1) as [a|] eqn:La.
    - destruct HP as (i & HPi & Hi).
      assert (Rac : Rn k a c).
      { exists q. rewrite E. apply adj_app. right; right. auto. }
      pose proof (proj1 (proj2 (inv_next _ _ I)) _ _ Rac) as (_ & Ha0 & _).
      destruct l2 as [|b l2].
      + exists (upd (nexts d) i (0, 0)). unfold d1. rewrite HPi, HN.
        split; [reflexivity|]. split; [intros; discriminate|].
        eapply tab_ext; [eapply tab_kill; eauto; apply (inv_next _ _ I)|].
        intros x y. rewrite Rn_unlink by eauto. simpl. split.
        * intros [H Hne]. left. split; auto. split.
          -- intros ->. destruct H as [q' H].
             assert (q' = q).
             { eapply (kw_disj _ _ W _ _ c); [apply (adj_in _ _ _ H)|auto]. }
             subst q'. revert H. rewrite E. apply adj_last_none; auto.
             apply last_error_snoc.
          -- intros ->. apply Hne. split; auto.
             eapply (Rn_fun_l W); eauto.
        * intros [(H & H1 & H2)|[_ H]]; [|discriminate]. split; auto.
          intros [_ ->]. congruence.
      + destruct HN as (j & HNj & Hj).
        assert (Rcb : Rn k c b).
        { exists q. rewrite E. apply adj_split. eauto. }
        pose proof (proj1 (proj2 (inv_next _ _ I)) _ _ Rcb) as (_ & _ & Hb0).
        exists (upd (nexts d) i (a, b)). unfold d1. rewrite HPi, HNj.
        rewrite (at_idx_nth _ _ _ Hi), (at_idx_nth _ _ _ Hj).
        split; [reflexivity|].
        assert (Hij : i <> j).
        { intros ->. rewrite Hi in Hj. injection Hj as -> ->.
          destruct Rac as [q' H]. eapply adj_neq; [apply (kw_nodup _ _ W)| exact H|auto]. }
        assert (Hac : a <> c).
        { destruct Rac as [q' H]. eapply adj_neq; [apply (kw_nodup _ _ W)| exact H]. }
        assert (Hbc : b <> c).
        { destruct Rcb as [q' H]. apply not_eq_sym.
          eapply adj_neq; [apply (kw_nodup _ _ W)| exact H]. }
        assert (Nab : ~ Rn k a b).
        { intros H. apply Hbc. apply (Rn_fun_r W a c b); auto. }
        split.
        { intros j' Hj'. injection Hj' as <-. unfold at_idx.
          rewrite (nth_error_nth (upd (nexts d) i (a, b)) j (0,0) (x := (c, b))).
          - symmetry. apply nth_error_nth. exact Hj.
          - rewrite upd_nth_neq; auto. }
        eapply tab_ext.
        { eapply (tab_kill (upd (nexts d) i (a, b)) _ c b).
          - eapply (tab_set (nexts d) _ a c a b); eauto. apply (inv_next _ _ I).
          - rewrite upd_nth_neq; auto.
          - left. split; auto. intros [-> _]. congruence. }
        intros x y. rewrite Rn_unlink by eauto. simpl. split.
        * intros [[[H Hne]|[-> ->]] Hne2].
          -- left. split; auto. split.
             ++ intros ->. apply Hne2. split; auto. eapply (Rn_fun_r W); eauto.
             ++ intros ->. apply Hne. split; auto. eapply (Rn_fun_l W); eauto.
          -- auto.
        * intros [(H & Hx & Hy)|[Hx Hy]].
          -- split; [left; split; auto|]; intros [? ?]; congruence.
          -- split; [right; split; congruence|]. intros [? _].
             congruence.
    - apply last_error_none in La. subst l1. simpl in *.
      exists (nexts d). unfold d1. rewrite HP. split; [destruct d; reflexivity|].
      split; auto. destruct l2 as [|b l2].
      + rewrite HN. eapply tab_ext; [apply (inv_next _ _ I)|].
        intros x y. rewrite (Rn_unlink d k I q [] c []) by auto. simpl. split.
        * intros H. left. split; auto. destruct H as [q' H].
          split; intros ->; apply adj_in in H as Hin;
            (assert (q' = q) by (eapply (kw_disj _ _ W _ _ c); tauto)); subst q';
            rewrite E in H; simpl in H; destruct H as [[_ H]|[]]; discriminate.
        * intros [(H & _)|[H _]]; [auto|discriminate].
      + destruct HN as (j & HNj & Hj). rewrite HNj.
        assert (Rcb : Rn k c b).
        { exists q. rewrite E. simpl. auto. }
        eapply tab_ext; [eapply (tab_kill (nexts d) _ c b); eauto; apply (inv_next _ _ I)|].
        intros x y. rewrite (Rn_unlink d k I q [] c (b :: l2)) by auto. simpl. split.
        * intros [H Hne]. left. split; auto. split.
          -- intros ->. apply Hne. split; auto. eapply (Rn_fun_r W); eauto.
          -- intros ->. destruct H as [q' H].
             assert (q' = q).
             { eapply (kw_disj _ _ W _ _ c); [apply (adj_in _ _ _ H)|auto]. }
             subst q'. revert H. apply adj_hd_none; [apply (kw_nodup _ _ W)|].
             rewrite E. reflexivity.
        * intros [(H & Hx & Hy)|[Hx _]]; [|discriminate]. split; auto.
          intros [? ?]; congruence. }
  destruct HT as (d1n & Hd1 & Hat & HT).
  clearbody d1. subst d1.
  assert (Hlen : forall l, length (upd (nodes d) c l) = length (nodes d))
    by (intros; apply upd_length).
  destruct q as [p|f].
  - (* attached to a parent *)
    destruct (parent_at I p c Hc) as (i & Hpi & Hi). rewrite Hpi.
    cbn [bind].
    change (pchilds (set_nexts d d1n)) with (pchilds d).
    rewrite (at_idx_nth (pchilds d) _ _ Hi). cbn [fst].
    pose proof (kw_order _ _ W _ _ Hc) as Hpc.
    pose proof (first_at I p ltac:(lia)) as HF.
    assert (HE : k (Par p) <> []) by (rewrite E; destruct l1; discriminate).
    destruct (k (Par p)) as [|f0 lf] eqn:Ek; [congruence|].
    destruct HF as (kf & HF & Hkf).
    change (first_idx p (set_pchilds (set_nexts d d1n) (upd (pchilds d) i (0, 0))))
      with (first_idx p d).
    rewrite HF.
    change (firsts (set_pchilds (set_nexts d d1n) (upd (pchilds d) i (0, 0))))
      with (firsts d).
    change (nexts (set_pchilds (set_nexts d d1n) (upd (pchilds d) i (0, 0))))
      with d1n.
    rewrite (at_idx_nth _ _ _ Hkf). cbn [fst snd].
    assert (HFT : exists df,
      (if f0 =? c
       then match nx with
            | Some j => Ok (set_firsts (set_pchilds (set_nexts d d1n) (upd (pchilds d) i (0, 0)))
                 (upd (firsts d) kf (p, snd (at_idx d1n j))))
            | None => Ok (set_firsts (set_pchilds (set_nexts d d1n) (upd (pchilds d) i (0, 0)))
                 (upd (firsts d) kf (0, 0)))
            end
       else Ok (set_pchilds (set_nexts d d1n) (upd (pchilds d) i (0, 0))))
      = Ok (set_firsts (set_pchilds (set_nexts d d1n) (upd (pchilds d) i (0, 0))) df) /\
      tab_ok df (Rf (upk k (Par p) (l1 ++ l2)))).
    { assert (HRf : Rf k p f0) by (unfold Rf; now rewrite Ek).
      destruct (Nat.eqb_spec f0 c) as [->|Hne].
      - assert (l1 = []).
        { destruct l1 as [|y l1]; auto. simpl in E. injection E as <- E.
          simpl in Hnd. inversion Hnd; subst. exfalso. apply H1, in_elt. }
        subst l1. simpl in *. injection E as ->.
        destruct l2 as [|b l2].
        + rewrite HN. eexists. split; [reflexivity|].
          eapply tab_ext; [eapply (tab_kill (firsts d) _ p c); eauto; apply (inv_first _ _ I)|].
          intros x y. unfold Rf at 2. destruct (Nat.eq_dec p x) as [<-|Hx].
          * rewrite upk_eq. simpl. unfold Rf. rewrite Ek. simpl. split.
            -- intros [H Hn']. destruct Hn'. split; congruence.
            -- discriminate.
          * rewrite upk_neq by congruence. unfold Rf. intuition congruence.
        + destruct HN as (j & HNj & Hj). rewrite HNj.
          rewrite (Hat j HNj), (at_idx_nth _ _ _ Hj). cbn [snd].
          eexists. split; [reflexivity|].
          assert (Hb2 : In b (k (Par p))) by (rewrite Ek; simpl; auto).
          pose proof (kw_bound _ _ W _ _ Hb2).
          eapply tab_ext; [eapply (tab_set (firsts d) _ p c p b); eauto; try lia;
                           [apply (inv_first _ _ I)|]|].
          * unfold Rf. rewrite Ek. simpl. intros Hcb. injection Hcb as ->.
            inversion Hnd; subst. simpl in *. tauto.
          * intros x y. unfold Rf at 2. destruct (Nat.eq_dec p x) as [<-|Hx].
            -- rewrite upk_eq. simpl. unfold Rf. rewrite Ek. simpl. split.
               ++ intros [[H1 H2]|[_ ->]]; auto. destruct H2. split; congruence.
               ++ intros H1. right. split; congruence.
            -- rewrite upk_neq by congruence. unfold Rf. intuition congruence.
      - eexists. split.
        + unfold set_firsts, set_pchilds. simpl. reflexivity.
        + eapply tab_ext; [apply (inv_first _ _ I)|].
          intros x y. unfold Rf at 2. destruct (Nat.eq_dec p x) as [<-|Hx].
          * rewrite upk_eq. unfold Rf. rewrite Ek, E.
            destruct l1 as [|z l1]; simpl.
            -- simpl in E. congruence.
            -- tauto.
          * rewrite upk_neq by congruence. unfold Rf. tauto. }
    destruct HFT as (df & -> & HFT). cbn [bind].
    rewrite <- Ek in E.
    destruct nx as [j|] eqn:Enx.
    + eexists. split; [reflexivity|]. split; [|split; [reflexivity|split; [reflexivity|]]].
      * constructor; simpl.
        -- intros i' m. rewrite upd_nth. destruct (Nat.eqb_spec i' c) as [->|].
           ++ rewrite Hn. intros H. injection H as <-. reflexivity.
           ++ apply (inv_ids _ _ I).
        -- rewrite upd_length. apply (inv_len _ _ I).
        -- exact HT.
        -- exact HFT.
        -- rewrite upd_length. eapply pc_unlink; eauto.
        -- rewrite upd_length. eapply kw_unlink; eauto.
      * simpl. intros x Hx. apply in_upd in Hx. simpl. intuition.
    + eexists. split; [reflexivity|]. split; [|split; [reflexivity|split; [reflexivity|]]].
      * constructor; simpl.
        -- intros i' m. rewrite upd_nth. destruct (Nat.eqb_spec i' c) as [->|].
           ++ rewrite Hn. intros H. injection H as <-. reflexivity.
           ++ apply (inv_ids _ _ I).
        -- rewrite upd_length. apply (inv_len _ _ I).
        -- exact HT.
        -- exact HFT.
        -- rewrite upd_length. eapply pc_unlink; eauto.
        -- rewrite upd_length. eapply kw_unlink; eauto.
      * simpl. intros x Hx. apply in_upd in Hx. simpl. intuition.
  - (* in a floating chain *)
    rewrite (parent_flo I f c Hc). cbn [bind].
    assert (HFT : tab_ok (firsts d) (Rf (upk k (Flo f) (l1 ++ l2)))).
    { eapply tab_ext; [apply (inv_first _ _ I)|]. intros x y. unfold Rf.
      rewrite upk_neq by congruence. tauto. }
    assert (HPT := pc_unlink_flo d k I f c l1 l2 E).
    destruct nx as [j|] eqn:Enx.
    + eexists. split; [reflexivity|]. split; [|split; [reflexivity|split; [reflexivity|]]].
      * constructor; simpl.
        -- intros i' m. rewrite upd_nth. destruct (Nat.eqb_spec i' c) as [->|].
           ++ rewrite Hn. intros H. injection H as <-. reflexivity.
           ++ apply (inv_ids _ _ I).
        -- rewrite upd_length. apply (inv_len _ _ I).
        -- exact HT.
        -- exact HFT.
        -- rewrite upd_length. exact HPT.
        -- rewrite upd_length. eapply kw_unlink; eauto.
      * simpl. intros x Hx. right; auto.
    + eexists. split; [reflexivity|]. split; [|split; [reflexivity|split; [reflexivity|]]].
      * constructor; simpl.
        -- intros i' m. rewrite upd_nth. destruct (Nat.eqb_spec i' c) as [->|].
           ++ rewrite Hn. intros H. injection H as <-. reflexivity.
           ++ apply (inv_ids _ _ I).
        -- rewrite upd_length. apply (inv_len _ _ I).
        -- exact HT.
        -- exact HFT.
        -- rewrite upd_length. exact HPT.
        -- rewrite upd_length. eapply kw_unlink; eauto.
      * simpl. intros x Hx. right; auto.
Qed.

(** Unlinking a node that is in no chain. *)
Lemma unlink_free d k c :
  Inv d k -> 1 <= c < length (nodes d) -> (forall q, ~ In c (k q)) ->
  (forall p, ~ In (p, c) (pchilds d)) ->
  unlink_node c d = Ok (set_nodes d (upd (nodes d) c (removed_node c))).
Proof.
  intros I Hb Hf Hp. unfold unlink_node, get_node.
  destruct (nth_error (nodes d) c) as [n|] eqn:Hn.
  2: { apply nth_error_None in Hn. lia. }
  cbn [bind]. rewrite (inv_ids _ _ I _ _ Hn).
  rewrite (next_none I), (parent_none c), (prev_none I); auto; try lia.
Qed.

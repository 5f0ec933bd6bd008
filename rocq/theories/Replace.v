(** * Replacing a node by a chain; linking one fresh node (parser). *)
From Coq Require Import List NArith Arith Bool Lia.
From Verif Require Import Base TrieModel DomModel ParserModel EditModel DomSpec
  Lemmas Tables Inv Surgery Attach.
Import ListNotations.
Local Open Scope nat_scope.

Lemma find_idx_map {A} (g : A -> nat) (x : nat) (l l' : list A) :
  map g l = map g l' ->
  find_idx (fun e => g e =? x) l = find_idx (fun e => g e =? x) l'.
Proof.
  revert l'; induction l as [|a l IH]; destruct l' as [|a' l']; simpl; intros H;
    try discriminate; auto.
  injection H as Ha H. rewrite Ha, (IH l' H). reflexivity.
Qed.

Lemma upd_map {A B} (g : A -> B) (l : list A) i x :
  map g (upd l i x) = upd (map g l) i (g x).
Proof. revert i; induction l; destruct i; simpl; auto. now rewrite IHl. Qed.

Lemma upd_same {A} (l : list A) i x : nth_error l i = Some x -> upd l i x = l.
Proof.
  revert i; induction l; destruct i; simpl; intros H; try discriminate.
  - congruence.
  - now rewrite IHl.
Qed.

Lemma get_next_upd d i a b b' x :
  nth_error (nexts d) i = Some (a, b) -> x <> a ->
  get_next x (set_nexts d (upd (nexts d) i (a, b'))) = get_next x d.
Proof.
  intros Hi Hx. unfold get_next, next_idx. simpl.
  rewrite (find_idx_map fst x (upd (nexts d) i (a, b')) (nexts d)).
  2: { rewrite upd_map. simpl. apply upd_same. rewrite nth_error_map, Hi. reflexivity. }
  destruct (find_idx (fun e => fst e =? x) (nexts d)) as [j|] eqn:E; auto.
  apply find_idx_some in E as (y & Hj & Hy & _). apply Nat.eqb_eq in Hy.
  assert (i <> j) by (intros ->; rewrite Hi in Hj; injection Hj as <-; simpl in Hy; congruence).
  rewrite (at_idx_nth (upd (nexts d) i (a, b')) j y), (at_idx_nth _ _ _ Hj); auto.
  rewrite upd_nth_neq; auto.
Qed.

Section Replace.
  Context (d : dom) (k : kids) (I : Inv d k) (p f new : nat) (rest : list nat).
  Context (Hm : k (Flo f) = new :: rest).
  Context (Hp : forall c, In c (k (Flo f)) -> 1 <= p < c).
  Context (old : nat) (l1 l2 : list nat) (n : node).
  Context (E : k (Par p) = l1 ++ old :: l2).
  Context (Hn : nth_error (nodes d) old = Some n).
  Let W := inv_kw _ _ I.

  Lemma rep_disj x : In x (k (Par p)) -> ~ In x (k (Flo f)).
  Proof. exact (att_disj d k I p f x). Qed.

  Lemma Rn_replace la a b :
    last_error (k (Flo f)) = Some la ->
    Rn (splice k f p (l1 ++ (new :: rest) ++ l2)) a b <->
    (Rn k a b /\ a <> old /\ b <> old) \/ (last_error l1 = Some a /\ b = new) \/
    (a = la /\ hd_error l2 = Some b).
  Proof.
    intros Hla. rewrite Rn_splice, (Rn_split2 k f p a b), !adj_app, E, Hm, adj_app.
    rewrite hd_error_app, Hm in *. rewrite Hla. cbn [adj hd_error].
    pose proof (kw_nodup _ _ W (Par p)) as Hnd. rewrite E in Hnd.
    apply NoDup_remove_2 in Hnd.
    assert (N1 : forall x, In x l1 -> x <> old)
      by (intros x Hx ->; apply Hnd, in_or_app; auto).
    assert (N2 : forall x, In x l2 -> x <> old)
      by (intros x Hx ->; apply Hnd, in_or_app; auto).
    assert (Ho : In old (k (Par p))) by (rewrite E; apply in_elt).
    assert (N3 : forall x, In x (new :: rest) -> x <> old).
    { intros x Hx ->. apply (rep_disj old); auto. now rewrite Hm. }
    assert (N4 : forall q x, q <> Par p -> In x (k q) -> x <> old).
    { intros q x Hq Hx ->. apply Hq. eapply (kw_disj _ _ W); eauto. }
    assert (NN : forall l, (forall x, In x l -> x <> old) -> adj a b l ->
                           a <> old /\ b <> old).
    { intros l Hl H. apply adj_in in H. split; apply Hl; tauto. }
    change ((new = a /\ hd_error rest = Some b) \/ adj a b rest) with (adj a b (new :: rest)).
    split.
    - intros [[H|[[H|[H|H]]|H]]|(q & Hq1 & Hq2 & H)].
      + left. split; [auto|]. apply (NN l1); auto.
      + left. split; [auto|]. apply (NN (new :: rest)); auto.
      + left. split; [auto|]. apply (NN l2); auto.
      + destruct H as [H1 H2]. right; right. split; congruence.
      + destruct H as [H1 H2]. right; left. split; congruence.
      + left. split; [right; right; eauto|]. apply (NN (k q)); auto.
        intros x Hx. eapply N4; eauto.
    - intros [[H [Ha Hb]]|[[H1 ->]|[-> H]]].
      + destruct H as [[H|[[[H _]|H]|[_ H]]]|[H|H]]; auto 10; congruence.
      + auto 10.
      + auto 10.
  Qed.

  Lemma replace_refs_full :
    exists d', replace_refs old new d = Ok d' /\
      same_meta d d' /\
      nodes d' = upd (nodes d) old (mkNode old TRemoved (n_pay n)) /\
      (exists i, nth_error (pchilds d) i = Some (p, old) /\
         pchilds d' = upd (pchilds d) i (p, new) ++ map (pair p) rest) /\
      Inv d' (splice k f p (l1 ++ k (Flo f) ++ l2)).
  Proof.
    rewrite Hm.
    pose proof (att_p k p f new rest Hm Hp) as Hp1.
    pose proof (att_new_nz d k I f new rest Hm) as Hnz.
    assert (Hid : n_id n = old) by (apply (inv_ids _ _ I); auto).
    assert (Ho : In old (k (Par p))) by (rewrite E; apply in_elt).
    unfold replace_refs, get_node. rewrite Hn. cbn [bind]. rewrite Hid.
    rewrite (get_last_next_at I (Flo f) [] new rest Hm). cbn [bind].
    set (la := last rest new).
    assert (Hla : last_error (k (Flo f)) = Some la)
      by (rewrite Hm; apply last_last; reflexivity).
    assert (Hla_in : In la (k (Flo f))) by (apply last_error_in; auto).
    assert (Hnew_in : In new (k (Flo f))) by (rewrite Hm; simpl; auto).
    assert (Hla_nz : la <> 0) by (eapply (k_nz I (Flo f)); eauto).
    destruct (parent_at I p old Ho) as (i & Hpi & Hi). rewrite Hpi.
    rewrite (at_idx_nth _ _ _ Hi). cbn [fst].
    pose proof (next_at I (Par p) l1 old l2 E) as HN.
    pose proof (prev_at I (Par p) l1 old l2 E) as HP.
    set (k' := splice k f p (l1 ++ (new :: rest) ++ l2)).
    pose proof (kw_nodup _ _ W (Par p)) as Hnd. rewrite E in Hnd.
    assert (W' : kw (length (nodes d)) k').
    { apply kw_splice; auto.
      - apply nodup_app_inv in Hnd as (A1 & A2 & A3). inversion A2; subst.
        apply nodup_app; auto.
        + apply nodup_app; auto.
          * rewrite <- Hm. apply (kw_nodup _ _ W).
          * intros x Hx Hx'. apply (rep_disj x).
            -- rewrite E. apply in_or_app; simpl; auto.
            -- now rewrite Hm.
        + intros x Hx Hx'. apply in_app_or in Hx' as [Hx'|Hx'].
          * apply (rep_disj x); [|now rewrite Hm]. rewrite E. apply in_or_app; auto.
          * eapply A3; eauto. simpl; auto.
      - intros c Hc. apply in_app_or in Hc as [Hc|Hc].
        + left. rewrite E. apply in_or_app; auto.
        + apply in_app_or in Hc as [Hc|Hc].
          * right. now rewrite Hm.
          * left. rewrite E. apply in_or_app; simpl; auto. }
    (* parent table *)
    set (pc' := upd (pchilds d) i (p, new) ++ map (pair p) rest).
    assert (PC : pc_ok (length (nodes d)) pc' k').
    { eapply (pc_change _ (pchilds d) pc' k k' p f); auto.
      - apply (inv_pchild _ _ I).
      - intros e He. unfold pc' in He. apply in_app_or in He as [He|He].
        + apply in_upd in He as [->|He]; auto. right. exists new. auto.
        + apply in_map_iff in He as (c & <- & Hc). right. exists c.
          split; auto. left. rewrite Hm. simpl; auto.
      - intros a b Hb. unfold pc'. apply in_or_app.
        assert (Hkeep : In b (k (Par a)) -> b <> old ->
                        In (a, b) (upd (pchilds d) i (p, new))).
        { intros Hb' Hbo. eapply in_upd_keep; [|exact Hi|congruence].
          apply (pc_in _ _ _ (inv_pchild _ _ I)). exact Hb'. }
        destruct (Nat.eq_dec a p) as [->|Hne].
        + unfold k' in Hb. rewrite splice_par in Hb.
          apply NoDup_remove_2 in Hnd.
          apply in_app_or in Hb as [Hb|Hb].
          * left. apply Hkeep; [rewrite E; apply in_or_app; auto|].
            intros ->. apply Hnd, in_or_app; auto.
          * apply in_app_or in Hb as [[<-|Hb]|Hb].
            -- left. eapply in_upd_new; eauto.
            -- right. apply in_map. auto.
            -- left. apply Hkeep; [rewrite E; apply in_or_app; simpl; auto|].
               intros ->. apply Hnd, in_or_app; auto.
        + unfold k' in Hb. rewrite splice_other in Hb by congruence. left.
          apply Hkeep; auto. intros ->.
          assert (Par a = Par p) by (eapply (kw_disj _ _ W); eauto). congruence.
      - intros f' c Hc. unfold k' in Hc. destruct (Nat.eq_dec f' f) as [->|Hne].
        + rewrite splice_flo in Hc. destruct Hc.
        + rewrite splice_other in Hc by congruence. split; auto.
          intros Hc'. assert (Flo f' = Flo f) by (eapply (kw_disj _ _ W); eauto).
          congruence. }
    pose proof (first_at I p ltac:(lia)) as HF.
    (* first child and previous sibling *)
    set (D0 := match prev_idx old d with
         | Some i0 => set_nexts d (upd (nexts d) i0 (fst (at_idx (nexts d) i0), new))
         | None => match first_idx p d with
                   | Some k0 => set_firsts d (upd (firsts d) k0 (fst (at_idx (firsts d) k0), new))
                   | None => d
                   end
         end).
    assert (H0 : exists nx0 fs0, D0 = set_firsts (set_nexts d nx0) fs0 /\
        tab_ok fs0 (Rf k') /\
        tab_ok nx0 (fun a b => (Rn k a b /\ b <> old) \/ (last_error l1 = Some a /\ b = new)) /\
        (forall j b, nth_error (nexts d) j = Some (old, b) -> nth_error nx0 j = Some (old, b)) /\
        (forall x, In x (k (Flo f)) -> get_next x (set_nexts d nx0) = get_next x d)
        /\ length nx0 = length (nexts d)).
    { unfold D0. destruct (last_error l1) as [a|] eqn:La.
      - destruct HP as (iv & HPv & Hiv). rewrite HPv.
        rewrite (at_idx_nth _ _ _ Hiv). cbn [fst].
        assert (Rao : Rn k a old).
        { exists (Par p). rewrite E. apply adj_app. right; right. auto. }
        pose proof (proj1 (proj2 (inv_next _ _ I)) _ _ Rao) as (_ & Ha0 & _).
        assert (Ha_in : In a (k (Par p))).
        { rewrite E. apply in_or_app. left. apply last_error_in; auto. }
        eexists _, (firsts d). split; [reflexivity|]. split; [|split; [|split; [|split]]].
        + eapply tab_ext; [apply (inv_first _ _ I)|]. intros x y. unfold Rf.
          destruct (Nat.eq_dec x p) as [->|Hne].
          * unfold k'. rewrite splice_par, E. clear -La. destruct l1; [discriminate|]. simpl. tauto.
          * unfold k'. rewrite splice_other by congruence. tauto.
        + eapply tab_ext; [eapply (tab_set _ _ a old a new); eauto; [apply (inv_next _ _ I)|]|].
          * intros [q H]. apply adj_in in H as [H1 H2].
            assert (q = Par p) by (eapply (kw_disj _ _ W _ _ a); eauto). subst q.
            eapply (rep_disj new); eauto.
          * intros x y. split.
            -- intros [[H1 H2]|[-> ->]]; auto. left. split; auto. intros ->.
               apply H2. split; auto. eapply (Rn_fun_l W); eauto.
            -- intros [[H1 H2]|[H1 ->]].
               ++ left. split; auto. intros [_ ->]. congruence.
               ++ right. split; congruence.
        + intros j b Hj. rewrite upd_nth_neq; auto. intros ->.
          rewrite Hiv in Hj. injection Hj as -> ->.
          destruct Rao as [q H]. eapply adj_neq; [apply (kw_nodup _ _ W)|exact H|auto].
        + intros x Hx. eapply get_next_upd; eauto. intros ->. eapply rep_disj; eauto.
        + apply upd_length.
      - apply last_error_none in La. rewrite HP.
        rewrite E, La in HF. simpl in HF. destruct HF as (kf & HF & Hkf). rewrite HF.
        rewrite (at_idx_nth _ _ _ Hkf). cbn [fst].
        exists (nexts d). eexists. split; [destruct d; reflexivity|].
        split; [|split; [|split; [auto|split; auto]]].
        + eapply tab_ext; [eapply (tab_set _ _ p old p new); eauto; try lia;
                           [apply (inv_first _ _ I)| |]|].
          * unfold Rf. rewrite E, La. reflexivity.
          * unfold Rf. rewrite E, La. simpl. intros Heq. injection Heq as Heq.
            apply (rep_disj old); auto. rewrite Heq. auto.
          * intros x y. unfold Rf. destruct (Nat.eq_dec x p) as [->|Hne].
            -- unfold k'. rewrite splice_par, E, La. simpl. intuition congruence.
            -- unfold k'. rewrite splice_other by congruence. intuition congruence.
        + eapply tab_ext; [apply (inv_next _ _ I)|]. intros x y. split.
          * intros H. left. split; auto. intros ->. destruct H as [q H].
            assert (q = Par p).
            { eapply (kw_disj _ _ W _ _ old); [apply (adj_in _ _ _ H)|auto]. }
            subst q. revert H. apply adj_hd_none; [apply (kw_nodup _ _ W)|].
            rewrite E, La. reflexivity.
          * intros [[H _]|[H _]]; [auto|discriminate]. }
    destruct H0 as (nx0 & fs0 & HD0 & TF & TN & Hkeep & Hnext & Hlen0).
    clearbody D0. subst D0.
    change (pchilds (set_firsts (set_nexts d nx0) fs0)) with (pchilds d).
    rewrite (at_idx_nth _ _ _ Hi). cbn [fst].
    unfold replace_others.
    set (d1 := set_pchilds (set_firsts (set_nexts d nx0) fs0) (upd (pchilds d) i (p, new))).
    assert (Hsib : sibs d1 (get_next new d1) rest).
    { assert (G : forall x, In x (k (Flo f)) -> get_next x d1 = get_next x d).
      { intros x Hx. change (get_next x d1) with (get_next x (set_nexts d nx0)). auto. }
      rewrite G by auto.
      rewrite (get_next_at I (Flo f) [] new rest Hm).
      replace (match rest with [] => 0 | b :: _ => b end) with (hd 0 rest)
        by (destruct rest; reflexivity).
      assert (S : sibs d (hd 0 rest) rest)
        by (apply (sibs_at d k (Flo f) [new]); auto).
      assert (Hsub : forall x, In x rest -> In x (k (Flo f)))
        by (intros x Hx; rewrite Hm; simpl; auto).
      clear -S G Hsub. revert S Hsub. generalize (hd 0 rest).
      induction rest as [|x r IH]; intros y S Hsub; inversion S; subst; constructor; auto.
      rewrite G by (apply Hsub; simpl; auto). apply IH; auto.
      intros z Hz. apply Hsub. simpl; auto. }
    rewrite (connect_loop d1 p _ rest); [|exact Hsib|].
    2: { pose proof (chain_length I (Flo f)) as L. rewrite Hm in L. simpl in L.
         change (nexts d1) with nx0. lia. }
    cbn [bind].
    (* next sibling *)
    set (D1 := set_pchilds d1 (pchilds d1 ++ map (pair p) rest)).
    assert (H1 : exists nx1,
       match next_idx old d with
       | Some j => set_nexts D1 (upd (nexts D1) j (la, snd (at_idx (nexts D1) j)))
       | None => D1
       end = set_nexts D1 nx1 /\ tab_ok nx1 (Rn k')).
    { change (nexts D1) with nx0.
      assert (RR := fun x y => Rn_replace la x y Hla). fold k' in RR.
      clearbody k'.
      destruct l2 as [|b l2'].
      - rewrite HN. exists nx0. split; [destruct d; reflexivity|].
        eapply tab_ext; [exact TN|]. intros x y.
        rewrite RR. simpl. split.
        + intros [[H H']|H]; auto. left. split; auto. split; auto.
          intros ->. destruct H as [q H].
          assert (q = Par p).
          { eapply (kw_disj _ _ W _ _ old); [apply (adj_in _ _ _ H)|auto]. }
          subst q. revert H. apply adj_last_none; [apply (kw_nodup _ _ W)|].
          rewrite E. apply last_error_snoc.
        + intros [[H [H' H'']]|[H|[_ H]]]; auto. discriminate.
      - destruct HN as (j & HNj & Hj). rewrite HNj.
        pose proof (Hkeep _ _ Hj) as Hj0. rewrite (at_idx_nth _ _ _ Hj0). cbn [snd].
        eexists. split; [reflexivity|].
        assert (Rob : Rn k old b).
        { exists (Par p). rewrite E. apply adj_split. eauto. }
        assert (Hob : b <> old).
        { destruct Rob as [q H]. apply not_eq_sym.
          eapply adj_neq; [apply (kw_nodup _ _ W)|exact H]. }
        assert (Hb_in : In b (k (Par p))).
        { rewrite E. apply in_or_app; simpl; auto. }
        pose proof (k_nz I _ _ Hb_in) as Hb0.
        eapply tab_ext; [eapply (tab_set nx0 _ old b la b j);
          [exact TN|exact Hj0|left; auto|auto|auto|]|].
        + intros [[H _]|[_ H]].
          * destruct H as [q H]. apply adj_in in H as [Hx Hy].
            assert (q = Par p) by (eapply (kw_disj _ _ W _ _ b); eauto). subst q.
            eapply (rep_disj la); eauto.
          * subst b. eapply rep_disj; eauto.
        + intros x y. rewrite RR. simpl. split.
          * intros [[[[H H']|H] Hne]|[-> ->]]; auto. left. split; auto. split; auto.
            intros ->. apply Hne. split; auto. eapply (Rn_fun_r W); eauto.
          * intros [[H [H' H'']]|[[H ->]|[-> H]]].
            -- left. split; auto. intros [-> _]. congruence.
            -- left. split; auto. intros [-> _]. apply last_error_in in H.
               apply NoDup_remove_2 in Hnd. apply Hnd, in_or_app; auto.
            -- right. split; congruence. }
    destruct H1 as (nx1 & -> & TN1).
    eexists. split; [reflexivity|]. split; [reflexivity|]. split; [reflexivity|].
    split; [exists i; split; [exact Hi|reflexivity]|].
    constructor; simpl.
    - intros j m. rewrite upd_nth. destruct (Nat.eqb_spec j old) as [->|].
      + rewrite Hn. intros H. injection H as <-. reflexivity.
      + apply (inv_ids _ _ I).
    - rewrite upd_length. apply (inv_len _ _ I).
    - exact TN1.
    - exact TF.
    - rewrite upd_length. exact PC.
    - rewrite upd_length. exact W'.
  Qed.
  Lemma replace_refs_ok :
    exists d', replace_refs old new d = Ok d' /\
      same_meta d d' /\
      nodes d' = upd (nodes d) old (mkNode old TRemoved (n_pay n)) /\
      Inv d' (splice k f p (l1 ++ k (Flo f) ++ l2)).
  Proof. destruct replace_refs_full as (d' & A & B & C & _ & D). eauto 10. Qed.
End Replace.

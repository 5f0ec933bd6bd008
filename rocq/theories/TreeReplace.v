(** * Every editing call is a step of the tree machine (C84): replacing by HTML. *)
From Coq Require Import List NArith Arith Bool Lia.
From Verif Require Import Base TrieModel DomModel ParserModel EditModel DomSpec ApiSpec GrammarSpec ReaderSpec
  TreeSpec TreeProofs TreeStep TreeOps TreeNumber TreeHtml Attach EditUser EditUserHtml ReadUser ReaderUser.
Import ListNotations.
Local Open Scope nat_scope.

Lemma map_tl {A B} (f : A -> B) l : map f (tl l) = tl (map f l).
Proof. destruct l; reflexivity. Qed.
Lemma map_removelast {A B} (f : A -> B) l : map f (removelast l) = removelast (map f l).
Proof.
  induction l as [|a l IH]; [reflexivity|]. destruct l as [|b l]; [reflexivity|].
  change (f a :: map f (removelast (b :: l)) = f a :: removelast (map f (b :: l))). now rewrite IH.
Qed.
Lemma removelast_incl {A} (l : list A) x : In x (removelast l) -> In x l.
Proof.
  destruct l as [|a l] using rev_ind; [auto|]. rewrite removelast_app1. intros H. apply in_or_app. auto.
Qed.

Lemma nil_dec {A} (l : list A) : l = [] \/ l <> [].
Proof. destruct l; [left|right]; congruence. Qed.
Lemma tl_incl {A} (l : list A) x : In x (tl l) -> In x l.
Proof. destruct l; simpl; auto. Qed.

(** Cutting the merged texts off the fragment, and the neighbours after merging. *)
Definition cutf {A B} (f : option A) (l : list B) : list B := match f with Some _ => tl l | None => l end.
Definition cutg {A B} (g : option A) (l : list B) : list B := match g with Some _ => removelast l | None => l end.
Definition putf (f : option (nat * bytes)) (a : list vtree) : list vtree :=
  match f with Some (_, s) => retext_last s a | None => a end.
Definition putg (g : option (nat * bytes)) (b : list vtree) : list vtree :=
  match g with Some (_, s) => retext_first s b | None => b end.

Section Rep.
  Context (d : dom) (R : reachable d) (T : vtree) (HT : view d T) (HV : vid T = 1) (d' : dom).
  Notation n := (length (nodes d)).
  Context (bl h : bytes) (d1 : dom) (E : parse_extra (Some bl) h d = Ok (true, d1)) (L : n < length (nodes d1)).
  Context (ts : list tree) (us : list (bytes * bool)) (EF : fragment_of bl h = Trees ts us).
  Notation new := (numbers n ts).
  Notation tops := (map vid new).
  Context (p c : nat) (l1 l2 : list nat) (Hl : children d p (l1 ++ c :: l2)).
  Context (Er : run bl (ReplaceHtml c h) d = Ok d').

  Lemma NS : sibs d1 n tops.
  Proof. exact (new_sibs d R bl h d1 E L ts us EF). Qed.
  Lemma NV : Forall (view d1) new.
  Proof. exact (new_views d R bl h d1 E L ts us EF). Qed.
  Lemma NN : NoDup (flat_map ids new).
  Proof. exact (new_nodup d R bl h d1 E L ts us EF). Qed.
  Lemma NG v q : In v new -> In q (ids v) -> n <= q.
  Proof. exact (new_ge d R T HV bl h d1 E L ts us EF v q). Qed.

  Lemma kept_two f g (a b : list vtree) :
    first_merge d d1 l1 tops f -> last_merge d d1 l2 tops g ->
    (length tops = 1 -> f = None /\ g = None) ->
    cutg g (cutf f tops) <> [] ->
    (forall a b, Forall (view d) a -> Forall (view d) b -> map vid a = l1 -> map vid b = l2 ->
       put_between a new b = putf f a ++ cutg g (cutf f new) ++ putg g b) ->
    view d' (at_child c (fun a b => put_between a new b) T).
  Proof.
    intros Hf Hg H1 HB Hp.
    destruct (u_replace_html d R bl h d1 E L tops NS p c l1 l2 Hl f g Hf Hg H1 HB) as (d0 & E0 & A & B & C & D & F1 & G1 & K).
    pose proof Er as Er'. cbn [run] in Er'. rewrite E0 in Er'. cbn in Er'. assert (Ed : d0 = d') by congruence. clear Er' E0.
    rewrite Ed in *. clear Ed.
    assert (Hc : In c (l1 ++ c :: l2)) by (apply in_or_app; simpl; auto).
    destruct (kid_bounds d R p _ c Hl Hc) as (Lc1 & Lc2).
    pose proof (kids_nodup d R _ _ Hl) as ND0.
    destruct (new_cons d R bl h d1 E L ts us EF) as (t0 & ts0 & Ets & Et).
    assert (Hhd : hd 0 tops = n) by now rewrite Et.
    assert (Hlast : n <= last tops 0 /\ forall v, new = removelast new ++ [v] -> last tops 0 = vid v).
    { split.
      - assert (Hi : In (last tops 0) tops).
        { rewrite Et. clear. generalize (map vid (numbers (n + tsize t0) ts0)). intros l.
          destruct (@exists_last _ (n :: l)) as (l0 & x & ->); [discriminate|]. rewrite List.last_last.
          apply in_or_app. simpl. auto. }
        apply in_map_iff in Hi. destruct Hi as (v & <- & Hv). eapply NG; [exact Hv|apply in_ids_vid].
      - intros v Hv. rewrite Hv, map_app. cbn [map]. apply List.last_last. }
    destruct Hlast as (Hlge & Hlv). rewrite Hhd in *. set (z := last tops 0) in *.
    pose proof (frag_frame d R d' bl h d1 E _ _ K B) as F.
    assert (Lt1 : forall x, In x (l1 ++ c :: l2) -> x < n) by (intros x Hx; apply (kid_bounds d R p _ x Hl Hx)).
    assert (X1 : forall t s, f = Some (t, s) -> In t l1).
    { intros t s Ef. rewrite Ef in Hf. cbn in Hf. destruct Hf as (o1 & s1 & y & r & _ & ((l0 & ->) & _) & _).
      apply in_or_app. simpl. auto. }
    assert (X2 : forall t s, g = Some (t, s) -> In t l2).
    { intros t s Eg. rewrite Eg in Hg. cbn in Hg. destruct Hg as (o1 & s1 & y & r & _ & ((l0 & ->) & _) & _).
      simpl. auto. }
    eapply (place_child d R T HT HV d' p c _ l1 l2 _ (c :: merge_ids f n ++ merge_ids g z)); [exact F|exact Hl|exact A| |].
    - intros x [<-|Hx]; [auto|]. apply in_app_or in Hx. destruct Hx as [Hx|Hx].
      + destruct f as [[t s]|]; [|destruct Hx]. destruct Hx as [<-|[<-|[]]]; [|auto]. left. apply in_or_app. left. eauto.
      + destruct g as [[t s]|]; [|destruct Hx]. destruct Hx as [<-|[<-|[]]]; [|auto]. left. apply in_or_app. right. right. eauto.
    - intros a0 k b0 Fk Ea Ek Eb ND. apply Forall_app in Fk. destruct Fk as (Fa & Fb0).
      assert (Fb : Forall (view d) b0) by now inversion Fb0.
      rewrite (Hp a0 b0) by auto. split.
      { rewrite !map_app. f_equal; [|f_equal].
        - rewrite <- Ea. destruct f as [[t s]|]; [apply map_retext_last|reflexivity].
        - destruct f as [[t s]|]; destruct g as [[t' s']|]; cbn [cutf cutg]; rewrite ?map_removelast, ?map_tl; reflexivity.
        - rewrite <- Eb. destruct g as [[t s]|]; [apply map_retext_first|reflexivity]. }
      (* an old sibling that is not merged *)
      assert (Old : forall v, In v (a0 ++ b0) -> (forall t s, f = Some (t, s) -> vid v <> t) -> (forall t s, g = Some (t, s) -> vid v <> t) ->
         fine d d' (c :: merge_ids f n ++ merge_ids g z) (a0 ++ k :: b0) v).
      { intros v Hv N1 N2. right. left. split; [rewrite in_app_iff in *; simpl; tauto|].
        assert (Hm : In (vid v) (l1 ++ l2)).
        { apply in_app_or in Hv. apply in_or_app. destruct Hv as [Hv|Hv]; [left; rewrite <- Ea|right; rewrite <- Eb]; now apply in_map. }
        assert (Lv : vid v < n) by (apply Lt1; rewrite in_app_iff in *; simpl; tauto).
        intros [Hx|Hx]; [apply NoDup_remove_2 in ND0; congruence|]. apply in_app_or in Hx. destruct Hx as [Hx|Hx].
        - destruct f as [[t s]|]; [|destruct Hx]. destruct Hx as [Hx|[Hx|[]]]; [|lia]. eapply N1; eauto.
        - destruct g as [[t s]|]; [|destruct Hx]. destruct Hx as [Hx|[Hx|[]]]; [|lia]. eapply N2; eauto. }
      intros v Hv. apply in_app_or in Hv. destruct Hv as [Hv|Hv]; [|apply in_app_or in Hv; destruct Hv as [Hv|Hv]].
      + (* before *)
        assert (NG2 : In v a0 -> forall t s, g = Some (t, s) -> vid v <> t).
        { intros Hi t s Eg Hx. specialize (X2 t s Eg). subst t.
          assert (In (vid v) l1) by (rewrite <- Ea; now apply in_map).
          eapply (NoDup_app_disj l1 (c :: l2)); eauto. now right. }
        destruct f as [[t s]|]; [|cbn [putf] in Hv; apply Old; [apply in_or_app; auto|discriminate|exact (NG2 Hv)]].
        cbn in Hf. destruct Hf as (old & s0 & y & r & _ & He & _ & _).
        rewrite <- Ea in He. destruct (last_text_some d a0 t old Fa He) as (a1 & k1 & Ek1 & E1 & E2 & E3).
        cbn [putf] in Hv. rewrite Ek1, retext_last_app in Hv. apply in_app_or in Hv. destruct Hv as [Hv|[<-|[]]].
        * assert (Ha : In v a0) by (rewrite Ek1; apply in_or_app; auto).
          apply Old; [apply in_or_app; auto| |exact (NG2 Ha)]. intros t' s' Ef. injection Ef as <- <-. intros Hx.
          assert (ND1 : NoDup (map vid a0)) by (rewrite Ea; eapply NoDup_app_l; eauto).
          rewrite Ek1, map_app in ND1. apply (NoDup_app_disj _ _ (vid v) ND1); [now apply in_map|]. simpl. left. congruence.
        * right. right. exists k1, old, s. split; [rewrite Ek1, <- app_assoc; apply in_or_app; right; simpl; auto|].
          split; auto. split; auto. rewrite E1. eapply frag_retext; eauto; [|apply F1].
          apply Lt1. apply in_or_app. left. eauto.
      + (* the fragment *)
        left. assert (Hv' : In v new).
        { destruct f as [[t s]|]; destruct g as [[t' s']|]; cbn [cutf cutg] in Hv; try apply removelast_incl in Hv; try apply tl_incl in Hv; auto. }
        eapply (new_kept d R T HV d' bl h d1 E L ts us EF); [exact K|exact B|lia|exact Hv'|].
        intros q Hq. pose proof (NG v q Hv' Hq) as Lq. intros [Hx|Hx]; [lia|]. apply in_app_or in Hx. destruct Hx as [Hx|Hx].
        * destruct f as [[t s]|]; [|destruct Hx]. specialize (X1 t s eq_refl).
          assert (t < n) by (apply Lt1; apply in_or_app; auto).
          destruct Hx as [Hx|[Hx|[]]]; [lia|]. subst q.
          assert (Hv2 : In v (tl new)) by (destruct g; cbn [cutf cutg] in Hv; [now apply removelast_incl|auto]).
          pose proof NN as NN'. rewrite Ets in NN', Hv2. cbn [numbers flat_map tl] in NN', Hv2.
          apply (NoDup_app_disj _ _ n NN').
          -- rewrite <- (number_vid n t0) at 1. apply in_ids_vid.
          -- apply in_flat_map. eauto.
        * destruct g as [[t s]|]; [|destruct Hx]. specialize (X2 t s eq_refl).
          assert (t < n) by (apply Lt1; apply in_or_app; right; right; auto).
          destruct Hx as [Hx|[Hx|[]]]; [lia|]. cbn [cutg] in Hv.
          assert (Hne : new <> []) by (rewrite Ets; discriminate).
          destruct (@exists_last _ new Hne) as (m & w & Em).
          assert (Hz : z = vid w). { apply Hlv. rewrite Em at 1. now rewrite Em, removelast_app1. }
          assert (Hv2 : In v m).
          { destruct f as [[t' s']|]; cbn [cutf] in Hv.
            - rewrite Em in Hv. destruct m as [|m0 m]; [destruct Hv|]. cbn [app tl] in Hv. rewrite removelast_app1 in Hv. now right.
            - rewrite Em, removelast_app1 in Hv. exact Hv. }
          pose proof NN as NN'. rewrite Em, flat_map_app in NN'. apply (NoDup_app_disj _ _ q NN').
          -- apply in_flat_map. eauto.
          -- cbn [flat_map]. rewrite app_nil_r, <- Hx, Hz. apply in_ids_vid.
      + (* behind *)
        assert (NF2 : In v b0 -> forall t s, f = Some (t, s) -> vid v <> t).
        { intros Hi t s Ef Hx. specialize (X1 t s Ef). subst t.
          assert (In (vid v) l2) by (rewrite <- Eb; now apply in_map).
          eapply (NoDup_app_disj l1 (c :: l2)); eauto. now right. }
        destruct g as [[t s]|]; [|cbn [putg] in Hv; apply Old; [apply in_or_app; auto|exact (NF2 Hv)|discriminate]].
        cbn in Hg. destruct Hg as (old & s0 & y & r & _ & He & _ & _).
        rewrite <- Eb in He. destruct (first_text_some d b0 t old Fb He) as (k1 & b1 & Ek1 & E1 & E2 & E3).
        cbn [putg] in Hv. rewrite Ek1 in Hv. cbn [retext_first] in Hv. destruct Hv as [<-|Hv].
        * right. right. exists k1, old, s. split; [rewrite Ek1; apply in_or_app; simpl; auto|].
          split; auto. split; auto. rewrite E1. eapply frag_retext; eauto; [|apply G1].
          apply Lt1. apply in_or_app. right. right. eauto.
        * assert (Hb : In v b0) by (rewrite Ek1; simpl; auto).
          apply Old; [apply in_or_app; auto|exact (NF2 Hb)|]. intros t' s' Ef. injection Ef as <- <-. intros Hx.
          assert (ND1 : NoDup (map vid b0)).
          { rewrite Eb. apply NoDup_app_r in ND0. apply NoDup_cons_iff in ND0. tauto. }
          rewrite Ek1 in ND1. cbn [map] in ND1. apply NoDup_cons_iff in ND1. apply ND1. rewrite E1, <- Hx. now apply in_map.
  Qed.

  Lemma between_two f g : 2 <= length new ->
    first_merge d d1 l1 tops f -> last_merge d d1 l2 tops g ->
    forall a b, Forall (view d) a -> Forall (view d) b -> map vid a = l1 -> map vid b = l2 ->
       put_between a new b = putf f a ++ cutg g (cutf f new) ++ putg g b.
  Proof.
    intros L2 Hf Hg a b Fa Fb Ea Eb.
    assert (B1 : put_before new b = cutg g new ++ putg g b).
    { unfold put_before. destruct g as [[t s']|]; cbn [cutg putg].
      - destruct Hg as (old & s & y & r & Ey & Hs & Ty & ->). rewrite <- Eb in Hs.
        destruct (first_text_some d b t old Fb Hs) as (k & b1 & _ & _ & _ & ->).
        destruct (last_text_some d1 new y s NV) as (r' & x & _ & _ & _ & ->); [split; eauto|]. reflexivity.
      - destruct Hg as [Hg|Hg].
        + rewrite (first_text_none d b Fb); [|now rewrite Eb]. now destruct (last_text new).
        + now rewrite (last_text_none d1 new NV Hg). }
    destruct new as [|x0 [|x1 new']] eqn:En; cbn [length] in L2; try lia. rewrite <- En in *.
    assert (PB : put_between a new b = put_after a (put_before new b)) by (rewrite En; reflexivity).
    rewrite PB, B1.
    assert (Hfst : first_text (cutg g new ++ putg g b) = first_text new).
    { rewrite En. destruct g; reflexivity. }
    unfold put_after. rewrite Hfst. destruct f as [[t s']|]; cbn [cutf putf].
    - destruct Hf as (old & s & y & r & Ey & Hs & Ty & ->). rewrite <- Ea in Hs.
      destruct (last_text_some d a t old Fa Hs) as (a1 & k & _ & _ & _ & ->).
      destruct (first_text_some d1 new y s NV) as (x & r' & _ & _ & _ & ->); [split; eauto|].
      f_equal. rewrite En. destruct g; reflexivity.
    - destruct Hf as [Hf|Hf].
      + rewrite (last_text_none d a Fa); [|now rewrite Ea]. reflexivity.
      + rewrite (first_text_none d1 new NV Hf). now destruct (last_text a).
  Qed.

  Lemma first_dec : exists f, first_merge d d1 l1 tops f.
  Proof.
    destruct (text_end_dec d l1) as [(t & old & H)|H]; [|exists None; now left].
    destruct (text_start_dec d1 tops) as [(y & s & ((r & H1) & H2))|H']; [|exists None; now right].
    exists (Some (t, old ++ [cSP] ++ s)). cbn. exists old, s, y, r. auto.
  Qed.
  Lemma last_dec : exists g, last_merge d d1 l2 tops g.
  Proof.
    destruct (text_start_dec d l2) as [(t & old & H)|H]; [|exists None; now left].
    destruct (text_end_dec d1 tops) as [(y & s & ((r & H1) & H2))|H']; [|exists None; now right].
    exists (Some (t, s ++ [cSP] ++ old)). cbn. exists old, s, y, r. auto.
  Qed.
  Lemma old_text x s : In x (l1 ++ l2) -> text_of d x = Some s -> is_text_node d1 x.
  Proof.
    intros Hx Ht. exists s. destruct (u_fragment d R bl h true d1 E) as (_ & _ & F2 & _).
    assert (Lx : x < n). { apply (kid_bounds d R p _ x Hl). rewrite in_app_iff in *. simpl. tauto. }
    specialize (F2 x Lx). unfold same_content, content in F2. congruence.
  Qed.

  Lemma s_replace_html : ~ replace_bad d d1 l1 l2 -> view d' (step bl n (ReplaceHtml c h) T).
  Proof.
    intros NB. cbn [step]. rewrite (html_new d bl h ts us EF).
    destruct (new_cons d R bl h d1 E L ts us EF) as (t0 & ts0 & Ets & Et).
    destruct ts0 as [|t1 ts0].
    - (* one node *)
      assert (En : new = [number n t0]) by (rewrite Ets; reflexivity).
      assert (Etop : tops = [n]) by (rewrite En; cbn [map]; now rewrite number_vid).
      assert (Alone : first_merge d d1 l1 tops None -> last_merge d d1 l2 tops None ->
                (forall a b, Forall (view d) a -> Forall (view d) b -> map vid a = l1 -> map vid b = l2 ->
                   put_between a new b = a ++ new ++ b) ->
                view d' (at_child c (fun a b => put_between a new b) T)).
      { intros H1 H2 H3. apply (kept_two None None [] []); auto. cbn. rewrite Etop. discriminate. }
      destruct t0 as [tag bs ps ks|s].
      + assert (Tn : text_of d1 n = None).
        { pose proof (new_text_at d R bl h d1 E L ts us EF (number n (Elem tag bs ps ks))) as X. rewrite number_vid in X.
          apply X. rewrite En. now left. }
        apply Alone.
        * right. rewrite Etop. intros l0 x Ex. congruence.
        * right. rewrite Etop. intros l0 x Ex. destruct l0 as [|y [|]]; try discriminate. injection Ex as <-. exact Tn.
        * intros a b _ _ _ _. rewrite En. unfold put_between, put_after, put_before.
          destruct (last_text a); cbn [first_text last_text vtext vlabel number l_text]; [|reflexivity]. now rewrite <- app_assoc.
      + assert (En' : new = [V n (text_label s) []]) by (rewrite En; reflexivity).
        assert (Tn : text_of d1 n = Some s).
        { pose proof (new_text_at d R bl h d1 E L ts us EF (number n (Txt s))) as X. apply X. rewrite En. now left. }
        destruct (merges_dec d l1 l2 s) as [(t & s' & M)|(H1 & H2)].
        * destruct (nil_dec l1) as [El1|Ne].
          { exfalso. apply NB. left. split; [rewrite <- Etop; exact NS|]. split; [exists s; exact Tn|]. split; [exact El1|].
            destruct M as [(old & ((l0 & X) & _) & _)|(_ & old & ((l0 & X) & Xt) & _)]; [rewrite El1 in X; destruct l0; discriminate|].
            exists t, l0. split; auto. eapply old_text; eauto. rewrite X. apply in_or_app. simpl. auto. }
          assert (Hc : In c (l1 ++ c :: l2)) by (apply in_or_app; simpl; auto).
          destruct (kid_bounds d R p _ c Hl Hc) as (Lc1 & Lc2).
          destruct (u_preorder d R c) as (m & PD & _ & _ & _); [lia|].
          assert (NS' : sibs d1 n [n]) by (rewrite <- Etop; exact NS).
          destruct (u_replace_html_text d R bl h d1 E L [n] NS' p c l1 l2 Hl s t s' (c :: m) eq_refl Tn M Ne PD)
            as (x & d0 & E0 & A & B & C & D & K).
          pose proof Er as Er'. cbn [run] in Er'. rewrite E0 in Er'. cbn in Er'. assert (Ed : d0 = d') by congruence. clear Er' E0.
          rewrite Ed in *. clear Ed.
          eapply (s_replace_merge d R T HT HV d' p c l1 l2 (c :: m) _ t s' [n]); eauto.
          -- eapply frag_frame; eauto.
          -- intros q [<-|[]]. lia.
          -- eapply frag_retext; eauto. pose proof (merges_in d _ _ _ _ _ M) as Hi.
             apply (kid_bounds d R p _ t Hl). rewrite in_app_iff in *. simpl. tauto.
          -- intros a b Fa Fb Ea Eb. rewrite En'. eapply (between_merge d l1 l2 s t s' n M a b); auto.
          -- eapply merges_in; eauto.
        * apply Alone; [now left|now left|]. intros a b Fa Fb Ea Eb. rewrite En'. eapply (between_new d l1 l2); eauto.
    - assert (L2 : 2 <= length new) by (rewrite Ets; cbn [numbers length]; lia).
      destruct first_dec as (f & Hf). destruct last_dec as (g & Hg).
      apply (kept_two f g [] []); auto.
      + rewrite map_length. lia.
      + destruct ts0 as [|t2 ts0].
        * assert (E2 : exists b, tops = [n; b]) by (rewrite Et; cbn [numbers map]; eauto). destruct E2 as (b & E2).
          destruct f as [[t s]|]; destruct g as [[t' s']|]; rewrite E2; cbn; try discriminate.
          exfalso. apply NB. right. exists b. split; [rewrite <- E2; exact NS|].
          destruct Hf as (o1 & s1 & y & r & Ey & ((l0 & X) & Xt) & Ty & _). rewrite E2 in Ey. injection Ey as <- <-.
          destruct Hg as (o2 & s2 & z & r' & Ez & ((l0' & X') & Xt') & Tz & _). rewrite E2 in Ez.
          assert (Ez' : [n] ++ [b] = r' ++ [z]) by exact Ez. apply app_inj_tail in Ez'. destruct Ez' as (_ & <-).
          split; [exists s1; exact Ty|]. split; [exists s2; exact Tz|]. split.
          -- exists t, l0. split; auto. eapply old_text; eauto. rewrite X. apply in_or_app. left. apply in_or_app. simpl. auto.
          -- exists t', l0'. split; auto. eapply old_text; eauto. rewrite X'. apply in_or_app. simpl. auto.
        * rewrite Et. cbn [numbers map]. destruct f as [[t s]|]; destruct g as [[t' s']|]; cbn; discriminate.
      + apply between_two; auto.
  Qed.
End Rep.

(** * Every editing call is a step of the tree machine (C84): calls with HTML. *)
From Coq Require Import List NArith Arith Bool Lia.
From Verif Require Import Base TrieModel DomModel ParserModel EditModel DomSpec ApiSpec GrammarSpec ReaderSpec
  TreeSpec TreeProofs TreeStep TreeOps TreeNumber Attach EditUser EditUserHtml ReadUser ReaderUser.
Import ListNotations.
Local Open Scope nat_scope.

(** What may stand in the new child list: a node known in [d'], an old child that
    is not touched, an old text with a new value. *)
Definition fine (d d' : dom) (X : list nat) (ks : list vtree) (v : vtree) : Prop :=
  view d' v \/ (In v ks /\ ~ In (vid v) X) \/
  (exists k old s, In k ks /\ v = with_text s k /\ vtext k = Some old /\ retexted d d' (vid k) s).

Lemma tops_only ks k q : NoDup (flat_map ids ks) -> In k ks -> In q (ids k) -> In q (map vid ks) -> q = vid k.
Proof.
  intros ND Hk Hq Hm. apply in_map_iff in Hm. destruct Hm as (k' & <- & Hk').
  f_equal. eapply (flat_disj ids); eauto. apply in_ids_vid.
Qed.

Section Place.
  Context (d : dom) (R : reachable d) (T : vtree) (HT : view d T) (HV : vid T = 1) (d' : dom).
  Notation n := (length (nodes d)).

  Lemma fine_view p X (ks : list vtree) v : frame d d' X [p] -> Forall (view d) ks -> NoDup (p :: flat_map ids ks) ->
    (forall q, In q (flat_map ids ks) -> q < n) -> (forall x, In x X -> In x (map vid ks) \/ n <= x) ->
    fine d d' X ks v -> view d' v.
  Proof.
    intros F Fk ND B HX. apply NoDup_cons_iff in ND. destruct ND as (N1 & N2). rewrite Forall_forall in Fk.
    intros [H|[(Hk & NX)|(k & old & s & Hk & -> & Et & RT)]]; auto.
    - eapply frame_view; eauto. intros q Hq. assert (Q : In q (flat_map ids ks)) by (apply in_flat_map; eauto).
      pose proof (B q Q). split; [lia|]. split.
      + intros Hx. destruct (HX q Hx) as [Hm|]; [|lia]. assert (q = vid v) by (eapply tops_only; eauto). congruence.
      + simpl. intros [<-|[]]. auto.
    - eapply view_retext; eauto; [eapply flat_nodup; eauto|].
      intros q Hq. assert (Q : In q (flat_map ids ks)) by (apply in_flat_map; eauto).
      pose proof (B q Q). split; [lia|]. split.
      + simpl. intros [<-|[]]. auto.
      + intros Nq Hx. destruct (HX q Hx) as [Hm|]; [|lia]. apply Nq. eapply tops_only; eauto.
  Qed.

  Lemma place p g l m X : frame d d' X [p] -> p < n -> children d p l -> children d' p m ->
    (forall x, In x X -> In x l \/ n <= x) ->
    (forall ks, Forall (view d) ks -> map vid ks = l -> NoDup (flat_map ids ks) ->
       map vid (g ks) = m /\ forall v, In v (g ks) -> fine d d' X ks v) ->
    view d' (at_node p (with_kids g) T).
  Proof.
    intros F L Hl Hm HX Hg. eapply (node_edit d R T HT HV); [exact F| | |].
    - intros x [Hx|[<-|[]]]; [|left; constructor]. destruct (HX x Hx) as [Hi|]; auto.
      left. econstructor; [exact Hl|exact Hi|constructor].
    - intros [i ll ks]. auto.
    - intros ll ks Hv ND B. destruct (kids_of _ _ _ _ Hv) as (C & Fk). cbn [with_kids].
      pose proof (kids_fun d R _ _ _ C Hl) as Em. pose proof ND as ND'. apply NoDup_cons_iff in ND'. destruct ND' as (N1 & N2).
      destruct (Hg ks Fk Em N2) as (G1 & G2).
      eapply kept_node; [exact F|exact Hv|exact L| |now rewrite G1|].
      + intros Hx. destruct (HX p Hx) as [Hi|]; [|lia]. destruct (kid_bounds d R _ _ _ Hl Hi). lia.
      + apply Forall_forall. intros v Hin. eapply fine_view; eauto.
        * intros q Hq. apply B. now right.
        * intros x Hx. rewrite Em. auto.
  Qed.

  Lemma place_child p c f l1 l2 m X : frame d d' X [p] -> children d p (l1 ++ c :: l2) -> children d' p m ->
    (forall x, In x X -> In x (l1 ++ c :: l2) \/ n <= x) ->
    (forall a k b, Forall (view d) (a ++ k :: b) -> map vid a = l1 -> vid k = c -> map vid b = l2 ->
       NoDup (flat_map ids (a ++ k :: b)) ->
       map vid (f a b) = m /\ forall v, In v (f a b) -> fine d d' X (a ++ k :: b) v) ->
    view d' (at_child c f T).
  Proof.
    intros F Hl Hm HX Hg.
    assert (Hc : In c (l1 ++ c :: l2)) by (apply in_or_app; simpl; auto).
    destruct (kid_bounds d R p _ c Hl Hc) as (Lc1 & Lc2).
    eapply (child_edit d R T HT HV); [exact Hl|exact F| |].
    - intros x [Hx|[<-|[]]]; [|left; constructor]. destruct (HX x Hx) as [Hi|]; auto.
      left. econstructor; [exact Hl|exact Hi|constructor].
    - intros ll a k b Hv ND B Ea Ek Eb. destruct (kids_of _ _ _ _ Hv) as (C & Fk).
      pose proof ND as ND'. apply NoDup_cons_iff in ND'. destruct ND' as (N1 & N2).
      assert (Em : map vid (a ++ k :: b) = l1 ++ c :: l2) by (rewrite map_app; cbn [map]; congruence).
      destruct (Hg a k b Fk Ea Ek Eb N2) as (G1 & G2).
      eapply kept_node; [exact F|exact Hv|lia| |now rewrite G1|].
      + intros Hx. destruct (HX p Hx) as [Hi|]; [|lia]. destruct (kid_bounds d R _ _ _ Hl Hi). lia.
      + apply Forall_forall. intros v Hin. eapply fine_view; eauto.
        * intros q Hq. apply B. now right.
        * intros x Hx. rewrite Em. auto.
  Qed.

  (** ** A parsed fragment *)
  Context (bl h : bytes).
  Section Frag.
    Context (d1 : dom) (E : parse_extra (Some bl) h d = Ok (true, d1)) (L : n < length (nodes d1)).
    Context (ts : list tree) (us : list (bytes * bool)) (EF : fragment_of bl h = Trees ts us).
    Notation new := (numbers n ts).
    Notation tops := (map vid new).

    Lemma new_sibs : sibs d1 n tops.
    Proof. eapply fragment_view; eauto. Qed.
    Lemma new_views : Forall (view d1) new.
    Proof. eapply fragment_view; eauto. Qed.
    Lemma new_ids : flat_map ids new = seq n (length (nodes d1) - n).
    Proof. eapply fragment_view; eauto. Qed.
    Lemma new_cons : exists t ts', ts = t :: ts' /\ tops = n :: map vid (numbers (n + tsize t) ts').
    Proof.
      destruct (fragment_view d bl h d1 ts us) as (_ & _ & NE & _); auto. destruct ts as [|t ts']; [congruence|].
      exists t, ts'. split; auto. cbn [numbers map]. now rewrite number_vid.
    Qed.
    Lemma new_nodup : NoDup (flat_map ids new).
    Proof. rewrite new_ids. apply seq_NoDup. Qed.
    Lemma new_ge v q : In v new -> In q (ids v) -> n <= q.
    Proof.
      intros Hv Hq. assert (X : In q (flat_map ids new)) by (apply in_flat_map; eauto).
      rewrite new_ids in X. apply in_seq in X. lia.
    Qed.
    Lemma html_new : html bl n h = Some new.
    Proof. unfold html. now rewrite EF. Qed.

    Lemma frag_frame X Y : keeps_but d1 d' X -> same_children_but d1 d' Y -> frame d d' X Y.
    Proof.
      intros K S. destruct (u_fragment d R bl h true d1 E) as (_ & F1 & F2 & _). split.
      - intros q Lq NX. rewrite (K q NX). now apply F2.
      - intros q m Lq NY H. apply S; auto. now apply F1.
    Qed.
    Lemma new_kept X p v : keeps_but d1 d' X -> same_children_but d1 d' [p] -> p < n -> In v new ->
      (forall q, In q (ids v) -> ~ In q X) -> view d' v.
    Proof.
      intros K S Lp Hv NX. apply (view_keep d1).
      - pose proof new_views as F. rewrite Forall_forall in F. auto.
      - intros q Hq. apply K. auto.
      - intros q m Hq H. apply S; auto. simpl. intros [<-|[]]. pose proof (new_ge v p Hv Hq). lia.
    Qed.
    Lemma frag_retext c s : c < n -> retexted d1 d' c s -> retexted d d' c s.
    Proof.
      intros Lc (A & B & C & D). destruct (u_fragment d R bl h true d1 E) as (_ & _ & F2 & _).
      specialize (F2 c Lc). unfold same_content, content in F2.
      repeat split; auto; congruence.
    Qed.
    Lemma new_text_at v : In v new -> text_of d1 (vid v) = vtext v.
    Proof. intros H. apply view_text. pose proof new_views as F. rewrite Forall_forall in F. auto. Qed.

    Lemma s_append_html p : node_id d p -> run bl (AppendHtml p h) d = Ok d' ->
      view d' (step bl n (AppendHtml p h) T).
    Proof.
      intros Np Er. cbn [step]. rewrite html_new. destruct (kids_at d R p) as (l & Hl).
      assert (Lp : p < n) by apply Np. pose proof new_views as NV. pose proof new_nodup as NN.
      assert (Plain : no_text_end d l \/ no_text_start d1 tops -> view d' (at_node p (with_kids (fun ks => put_after ks new)) T)).
      { intros HN. destruct (u_append_html_plain d R bl h d1 E L tops new_sibs p l Np Hl HN) as (d0 & E0 & A & B & C).
        cbn [run] in Er. rewrite E0 in Er. injection Er as ->.
        eapply (place p _ l _ []); [now apply frag_frame|exact Lp|exact Hl|exact A|intros x []|].
        intros ks Fk Em ND. assert (Ep : put_after ks new = ks ++ new).
        { unfold put_after. destruct HN as [HN|HN].
          - rewrite (last_text_none d ks); auto. now rewrite Em.
          - rewrite (first_text_none d1 new); auto. now destruct (last_text ks). }
        rewrite Ep. split; [now rewrite map_app, Em|]. intros v Hv. apply in_app_or in Hv. destruct Hv as [Hv|Hv].
        - right. left. split; auto.
        - left. eapply new_kept; eauto. }
      destruct (text_end_dec d l) as [(c & old & He)|He]; [|auto].
      destruct (text_start_dec d1 tops) as [(a & s & Hs)|Hs]; [|auto].
      destruct new_cons as (t & ts' & Ets & Et). pose proof Hs as ((l0 & El0) & Ea).
      rewrite Et in El0. injection El0 as <- El0.
      destruct (u_append_html_merge d R bl h d1 E L tops new_sibs p l Np Hl c old s He Ea) as (d0 & E0 & A & B & C & D & K).
      cbn [run] in Er. rewrite E0 in Er. injection Er as ->.
      pose proof He as ((lc & Elc) & Ec).
      assert (Hc : In c l) by (rewrite Elc; apply in_or_app; simpl; auto).
      destruct (kid_bounds d R _ _ _ Hl Hc) as (Lc1 & Lc2).
      eapply (place p _ l _ [c; n]); [now apply frag_frame|exact Lp|exact Hl|exact A| |].
      { intros x [<-|[<-|[]]]; auto. }
      intros ks Fk Em ND.
      rewrite <- Em in He. destruct (last_text_some d ks c old Fk He) as (ks0 & k & Ek & E1 & E2 & E3).
      destruct (first_text_some d1 new n s NV Hs) as (x & new' & En & X1 & X2 & X3).
      assert (Ep : put_after ks new = ks0 ++ with_text (old ++ [cSP] ++ s) k :: tl new).
      { unfold put_after. rewrite E3, X3. rewrite Ek, retext_last_app, <- app_assoc. reflexivity. }
      rewrite Ep. split.
      - rewrite map_app. cbn [map]. rewrite with_text_vid, E1, <- Em, Ek, map_app, <- app_assoc. cbn [map app].
        rewrite E1. f_equal. f_equal. now rewrite En.
      - intros v Hv. apply in_app_or in Hv. destruct Hv as [Hv|[<-|Hv]].
        + right. left. split; [rewrite Ek; apply in_or_app; auto|]. intros Hx.
          assert (Hvk : In v ks) by (rewrite Ek; apply in_or_app; auto).
          assert (Lv : vid v < n). { rewrite Forall_forall in Fk. apply (kid_bounds d R p l); auto. rewrite <- Em. now apply in_map. }
          destruct Hx as [Hx|[Hx|[]]]; [|lia].
          pose proof (kids_nodup d R _ _ Hl) as NL. rewrite Elc in NL. apply NoDup_remove_2 in NL. rewrite app_nil_r in NL.
          apply NL. assert (lc = map vid ks0).
          { rewrite Elc, Ek, map_app in Em. cbn [map] in Em. apply app_inj_tail in Em. symmetry. apply Em. }
          subst lc. rewrite Hx. now apply in_map.
        + right. right. exists k, old, (old ++ [cSP] ++ s). split; [rewrite Ek; apply in_or_app; simpl; auto|].
          split; auto. split; auto. rewrite E1. apply frag_retext; auto.
        + left. assert (Hv' : In v new) by (rewrite En in *; now right). eapply new_kept; eauto. intros q Hq.
          pose proof (new_ge v q Hv' Hq). simpl. intros [<-|[<-|[]]]; [lia|].
          rewrite En in NN, Hv. cbn [flat_map tl] in NN, Hv. apply (NoDup_app_disj _ _ n NN).
          * rewrite <- X1. apply in_ids_vid.
          * apply in_flat_map. eauto.
    Qed.

    Lemma removelast_app1 {A} (l : list A) x : removelast (l ++ [x]) = l.
    Proof. rewrite removelast_app by discriminate. simpl. apply app_nil_r. Qed.

    Lemma s_prepend_html p : node_id d p -> run bl (PrependHtml p h) d = Ok d' ->
      view d' (step bl n (PrependHtml p h) T).
    Proof.
      intros Np Er. cbn [step]. rewrite html_new. destruct (kids_at d R p) as (l & Hl).
      assert (Lp : p < n) by apply Np. pose proof new_views as NV. pose proof new_nodup as NN.
      assert (Plain : no_text_start d l \/ no_text_end d1 tops -> view d' (at_node p (with_kids (put_before new)) T)).
      { intros HN. destruct (u_prepend_html_plain d R bl h d1 E L tops new_sibs p l Np Hl HN) as (d0 & E0 & A & B & C).
        cbn [run] in Er. rewrite E0 in Er. injection Er as ->.
        eapply (place p _ l _ []); [now apply frag_frame|exact Lp|exact Hl|exact A|intros x []|].
        intros ks Fk Em ND. assert (Ep : put_before new ks = new ++ ks).
        { unfold put_before. destruct HN as [HN|HN].
          - rewrite (first_text_none d ks); auto; [|now rewrite Em]. now destruct (last_text new).
          - rewrite (last_text_none d1 new); auto. }
        rewrite Ep. split; [now rewrite map_app, Em|]. intros v Hv. apply in_app_or in Hv. destruct Hv as [Hv|Hv].
        - left. eapply new_kept; eauto.
        - right. left. split; auto. }
      destruct (text_start_dec d l) as [(c & old & He)|He]; [|auto].
      destruct (text_end_dec d1 tops) as [(a & s & Hs)|Hs]; [|auto].
      pose proof Hs as ((l0 & El0) & Ea).
      destruct (u_prepend_html_merge d R bl h d1 E L tops new_sibs p l Np Hl l0 a c old s El0 He Ea) as (d0 & E0 & A & B & C & D & K).
      cbn [run] in Er. rewrite E0 in Er. injection Er as ->.
      pose proof He as ((lc & Elc) & Ec).
      assert (Hc : In c l) by (rewrite Elc; simpl; auto).
      destruct (kid_bounds d R _ _ _ Hl Hc) as (Lc1 & Lc2).
      destruct (last_text_some d1 new a s NV Hs) as (new' & x & En & X1 & X2 & X3).
      assert (La : n <= a).
      { rewrite <- X1. apply (new_ge x); [rewrite En; apply in_or_app; simpl; auto|apply in_ids_vid]. }
      eapply (place p _ l _ [c; a]); [now apply frag_frame|exact Lp|exact Hl|exact A| |].
      { intros y [<-|[<-|[]]]; auto. }
      intros ks Fk Em ND.
      rewrite <- Em in He. destruct (first_text_some d ks c old Fk He) as (k & ks0 & Ek & E1 & E2 & E3).
      assert (Ep : put_before new ks = new' ++ with_text (s ++ [cSP] ++ old) k :: ks0).
      { unfold put_before. rewrite E3, X3. rewrite Ek, En, removelast_app1. reflexivity. }
      assert (E0' : l0 = map vid new').
      { rewrite En, map_app in El0. cbn [map] in El0. apply app_inj_tail in El0. symmetry. apply El0. }
      rewrite Ep. split.
      - rewrite map_app. cbn [map]. rewrite with_text_vid, E0', <- Em, Ek. reflexivity.
      - intros v Hv. apply in_app_or in Hv. destruct Hv as [Hv|[<-|Hv]].
        + left. assert (Hv' : In v new) by (rewrite En; apply in_or_app; auto). eapply new_kept; eauto. intros q Hq.
          pose proof (new_ge v q Hv' Hq). simpl. intros [<-|[<-|[]]]; [lia|].
          rewrite En, flat_map_app in NN. cbn [flat_map] in NN. apply (NoDup_app_disj _ _ a NN).
          * apply in_flat_map. eauto.
          * rewrite app_nil_r, <- X1. apply in_ids_vid.
        + right. right. exists k, old, (s ++ [cSP] ++ old). split; [rewrite Ek; simpl; auto|].
          split; auto. split; auto. rewrite E1. apply frag_retext; auto.
        + right. left. assert (Hvk : In v ks) by (rewrite Ek; simpl; auto). split; auto. intros Hx.
          assert (Lv : vid v < n). { apply (kid_bounds d R p l); auto. rewrite <- Em. now apply in_map. }
          destruct Hx as [Hx|[Hx|[]]]; [|lia].
          pose proof (kids_nodup d R _ _ Hl) as NL. rewrite <- Em, Ek in NL. cbn [map] in NL. apply NoDup_cons_iff in NL.
          apply NL. rewrite E1, Hx. now apply in_map.
    Qed.
  End Frag.

  (** The fragment is nested too deeply: nothing is placed. *)
  Lemma s_failed d1 : parse_extra (Some bl) h d = Ok (false, d1) -> d' = d1 -> view d' T /\ html bl n h = None.
  Proof.
    intros E ->. destruct (u_fragment d R bl h false d1 E) as (_ & F1 & F2 & _). split.
    - apply (view_keep d); auto.
      + intros q Hq. apply F2. pose proof (T_bound d R T HT HV q Hq). lia.
      + intros q m Hq H. apply F1; auto. pose proof (T_bound d R T HT HV q Hq). lia.
    - unfold html. pose proof (read_fragment d R bl h) as H. rewrite E in H. now rewrite H.
  Qed.
End Place.

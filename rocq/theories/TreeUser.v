(** * Every history is a run of the tree machine (C84). *)
From Coq Require Import List NArith Arith Bool Lia.
From Verif Require Import Base TrieModel DomModel ParserModel EditModel DomSpec ApiSpec GrammarSpec ReaderSpec
  TreeSpec TreeProofs TreeStep TreeOps TreeNumber TreeHtml TreeReplace EditUser EditUserHtml ReadUser ReaderUser.
Import ListNotations.
Local Open Scope nat_scope.

Lemma html_parses bl o d d' h : (o = (fun p => AppendHtml p h) \/ o = (fun p => PrependHtml p h) \/ o = (fun p => ReplaceHtml p h)) ->
  forall p, run bl (o p) d = Ok d' -> exists ok d1, parse_extra (Some bl) h d = Ok (ok, d1).
Proof.
  intros Ho p. destruct Ho as [-> |[-> | ->]]; cbn [run]; unfold append_html, prepend_html, replace_with_html;
    destruct (parse_extra (Some bl) h d) as [[ok d1]| | |]; try discriminate; eauto.
Qed.

Section Step.
  Context (d : dom) (R : reachable d) (T : vtree) (HT : view d T) (HV : vid T = 1).

  Lemma html_case bl o h p d' (Ho : o = (fun p => AppendHtml p h) \/ o = (fun p => PrependHtml p h) \/ o = (fun p => ReplaceHtml p h)) :
    has_nodes d bl h -> run bl (o p) d = Ok d' ->
    (forall d1 ts us, parse_extra (Some bl) h d = Ok (true, d1) -> length (nodes d) < length (nodes d1) ->
       fragment_of bl h = Trees ts us -> view d' (step bl (length (nodes d)) (o p) T)) ->
    view d' (step bl (length (nodes d)) (o p) T).
  Proof.
    intros HN E H. destruct (html_parses bl o d d' h Ho p E) as ([] & d1 & Ep).
    - pose proof (read_fragment d R bl h) as Q. rewrite Ep in Q. destruct Q as (ts & us & F & _). eapply H; eauto.
    - destruct (u_failed_append d bl h d1 p Ep) as (A & B & C).
      assert (Ed : d' = d1).
      { destruct Ho as [-> |[-> | ->]]; cbn [run] in E; rewrite ?A, ?B, ?C in E; cbn in E; congruence. }
      destruct (s_failed d R T HT HV d' bl h d1 Ep Ed) as (V & N).
      destruct Ho as [-> |[-> | ->]]; cbn [step]; rewrite N; exact V.
  Qed.

  Lemma step_view bl o d' : valid d bl o -> run bl o d = Ok d' -> view d' (step bl (length (nodes d)) o T).
  Proof.
    destruct o as [p e|p s|p h|p e|p s|p h|c e|c s|c h|c|p|p s|p b|p k w|p b|p k|p k w|p s app|p tag pr]; cbn [valid]; intros HVal E.
    - eapply s_append_doc; eauto.
    - eapply s_append_text; eauto.
    - destruct HVal as (Np & HN). eapply (html_case bl (fun p => AppendHtml p h)); eauto. intros. eapply s_append_html; eauto.
    - eapply s_prepend_doc; eauto.
    - eapply s_prepend_text; eauto.
    - destruct HVal as (Np & HN). eapply (html_case bl (fun p => PrependHtml p h)); eauto. intros. eapply s_prepend_html; eauto.
    - eapply s_replace_doc; eauto.
    - eapply s_replace_text; eauto.
    - destruct HVal as ((p & l & P0 & Hl & Hc) & HN & HB). eapply (html_case bl (fun p => ReplaceHtml p h)); eauto.
      intros d1 ts us Ep L EF. apply in_split in Hc. destruct Hc as (l1 & l2 & ->).
      eapply s_replace_html; eauto.
    - eapply s_remove; eauto.
    - eapply s_remove_children; eauto.
    - eapply s_set_text; eauto.
    - eapply s_add_bool; eauto.
    - eapply s_add_prop; eauto.
    - eapply s_remove_bool; eauto.
    - eapply s_remove_prop; eauto.
    - eapply s_set_prop; eauto.
    - eapply s_add_text; eauto.
    - eapply s_set_tag; eauto.
  Qed.
End Step.

(** ** The root stays where it is *)
Lemma at_child_vid c f v : vid (at_child c f v) = vid v.
Proof. destruct v as [i l ks]. cbn [at_child]. destruct (split_at c ks) as [[a b]|]; reflexivity. Qed.
Lemma with_kids_vid f v : vid (with_kids f v) = vid v.
Proof. destruct v; reflexivity. Qed.
Lemma with_bools_vid f v : vid (with_bools f v) = vid v.
Proof. destruct v; reflexivity. Qed.
Lemma with_props_vid f v : vid (with_props f v) = vid v.
Proof. destruct v; reflexivity. Qed.
Lemma with_tag_vid s v : vid (with_tag s v) = vid v.
Proof. destruct v; reflexivity. Qed.
Lemma more_text_at_vid s a v : vid (more_text_at s a v) = vid v.
Proof. unfold more_text_at. destruct v as [i l ks]. cbn [vlabel]. destruct (l_text l); reflexivity. Qed.
Lemma at_node_vid' p f v : (forall v, vid (f v) = vid v) -> vid (at_node p f v) = vid v.
Proof. intros H. apply at_node_vid. intros E. now rewrite H. Qed.
Lemma step_vid bl n o v : vid (step bl n o v) = vid v.
Proof.
  destruct o; cbn [step]; try (destruct (html bl n h)); auto; try apply at_child_vid; apply at_node_vid';
    intros; auto using with_kids_vid, with_bools_vid, with_props_vid, with_tag_vid, more_text_at_vid.
Qed.

Lemma trace_ok d v : trace d v -> reachable d /\ view d v /\ vid v = 1.
Proof.
  induction 1 as [t d ts us E D|d v bl o d' _ (R & H & V1) HVal E].
  - split; [eapply reach_create; eauto|]. split; [|reflexivity]. eapply created_view; eauto.
  - split; [eapply reach_step; eauto|]. split; [eapply step_view; eauto|]. now rewrite step_vid.
Qed.
Lemma trace_ex d : reachable d -> exists v, trace d v.
Proof.
  induction 1 as [t d E|d bl o d' R (v & H) HVal E].
  - pose proof (read_document t) as Q. rewrite E in Q. destruct Q as (ts & us & D & _).
    eexists. eapply trace_create; eauto.
  - eexists. eapply trace_step; eauto.
Qed.

(** ** One DOM shows one tree *)
Lemma view_unique d : reachable d -> forall v w, view d v -> view d w -> vid v = vid w -> v = w.
Proof.
  intros R. induction v as [i l ks IH] using vtree_induct. intros [j m js] H K E. cbn [vid] in E. subst j.
  apply view_inv in H, K. destruct H as (E1 & C1 & F1). destruct K as (E2 & C2 & F2).
  assert (l = m). { destruct l as [a1 a2 a3 a4 a5], m as [b1 b2 b3 b4 b5]. cbn [l_kind l_tag l_text l_bools l_props] in *. rewrite E1 in E2. congruence. }
  subst m. f_equal. pose proof (kids_fun d R _ _ _ C1 C2) as Em. clear E1 E2 C1 C2.
  revert js F2 Em. induction IH as [|k ks Hk _ IHk]; intros [|k' js] F2 Em; try discriminate; auto.
  cbn [map] in Em. injection Em as Ev Em. inversion F1; subst. inversion F2; subst. f_equal; auto.
Qed.
Lemma trace_view d v : reachable d -> (trace d v <-> view d v /\ vid v = 1).
Proof.
  intros R. split.
  - intros H. now apply trace_ok.
  - intros (H & V1). destruct (trace_ex d R) as (w & Hw). destruct (trace_ok d w Hw) as (_ & Hv & W1).
    rewrite (view_unique d R v w); auto. congruence.
Qed.

(** * Nodes over a history of calls (C90, C91). *)
From Coq Require Import List NArith Arith Bool Lia.
From Verif Require Import Base TrieModel DomModel ParserModel EditModel ReadModel DomSpec ApiSpec LifeSpec Lemmas
  Inv ParseTree RegProofs ApiProofs EditUser ReadUser Grow Life TreeProofs TreeOps Moves.
Import ListNotations.
Local Open Scope nat_scope.

Lemma hist_reachable d os d' : history d os d' -> reachable d -> reachable d'.
Proof. induction 1; intros R; [exact R|]. apply IHhistory. eapply (reach_step d bl o); eauto. Qed.
Lemma hist_later d os d' : history d os d' -> later d d'.
Proof. induction 1; [constructor|]. econstructor; eauto. Qed.
Lemma run_life bl o d d' e : run bl o d = Ok d' -> (forall n t p, o = SetTag n t p -> e = Some n) -> life e d d'.
Proof. intros E H. pose proof (f_run e bl o d H) as Q. rewrite E in Q. exact Q. Qed.
Definition renamed (o : op) : option nat := match o with SetTag n _ _ => Some n | _ => None end.
Lemma run_life' bl o d d' : run bl o d = Ok d' -> life (renamed o) d d'.
Proof. intros E. apply (run_life bl o); auto. intros n t p ->. reflexivity. Qed.

Lemma hist_kind d os d' : history d os d' -> forall n, n < length (nodes d) ->
  n < length (nodes d') /\ (kind d' n = kind d n \/ kind d' n = Some TRemoved).
Proof.
  induction 1 as [d|d bl o d1 os d' HV E H IH]; intros n L; [auto|].
  destruct (life_kind _ _ _ n (run_life' bl o d d1 E) L) as (L1 & K1). destruct (IH n L1) as (L2 & K2).
  split; auto. destruct K2 as [K2|K2]; [|auto]. rewrite K2. exact K1.
Qed.
Lemma hist_node d os d' n : history d os d' -> node_id d n ->
  node_id d' n /\ (kind d' n = kind d n \/ kind d' n = Some TRemoved).
Proof. intros H (N1 & N2). destruct (hist_kind d os d' H n N2) as (L & K). split; [split; auto|auto]. Qed.
Lemma removed_out d n : reachable d -> kind d n = Some TRemoved -> ~ attached d n.
Proof.
  intros R K (p & l & P0 & Hl & Hc). destruct (reachable_good d R) as [k G]. apply (kc d k) in Hl; auto. subst l.
  unfold kind in K. destruct (nth_error (nodes d) n) as [x|] eqn:E; [|discriminate]. injection K as K.
  destruct (ty_kids _ _ (g_ty _ _ G) _ _ _ Hc E) as [X|X]; congruence.
Qed.
Lemma hist_removed d os d' n : reachable d -> history d os d' -> kind d n = Some TRemoved ->
  kind d' n = Some TRemoved /\ ~ attached d' n.
Proof.
  intros R H K. assert (L : n < length (nodes d)).
  { unfold kind in K. apply nth_error_Some. destruct (nth_error (nodes d) n); congruence. }
  destruct (hist_kind d os d' H n L) as (_ & Q). assert (K' : kind d' n = Some TRemoved) by (destruct Q; congruence).
  split; auto. apply removed_out; auto. eapply hist_reachable; eauto.
Qed.
Lemma hist_name d os d' n tag : reachable d -> history d os d' -> tag_name d n = Some tag ->
  kind d' n = Some TDocument -> (forall t p, ~ In (SetTag n t p) os) -> tag_name d' n = Some tag.
Proof.
  intros R H. revert R. induction H as [d|d bl o d1 os d' HV E H IH]; intros R T K NI; [exact T|].
  assert (R1 : reachable d1) by (eapply (reach_step d bl o); eauto).
  assert (L : n < length (nodes d)).
  { unfold tag_name in T. apply nth_error_Some. destruct (nth_error (nodes d) n); discriminate. }
  pose proof (run_life' bl o d d1 E) as LF. destruct (life_kind _ _ _ n LF L) as (L1 & K1).
  assert (Kd : kind d n = Some TDocument).
  { unfold tag_name in T. unfold kind. destruct (nth_error (nodes d) n) as [[i ty pay]|]; [|discriminate].
    destruct ty; try discriminate. reflexivity. }
  assert (K1' : kind d1 n = Some TDocument).
  { destruct (hist_kind _ _ _ H n L1) as (_ & [Q|Q]); congruence. }
  apply IH; auto; [|intros t p X; apply (NI t p); now right].
  destruct (reachable_good d R) as [k G].
  eapply (life_tag (renamed o) d d1); eauto.
  - apply G.
  - pose proof (g_run bl o d) as Gr. rewrite E in Gr. apply Gr.
  - intros X. destruct o; try discriminate. injection X as ->. apply (NI tag0 paired). now left.
Qed.

Lemma hist_moves d os d' : reachable d -> history d os d' -> forall p l l', children d p l -> children d' p l' ->
  subseq (old (length (nodes d)) l') l.
Proof.
  intros R H. revert R. induction H as [d|d bl o d1 os d' HV E H IH]; intros R p l l' C C'.
  - rewrite (kids_fun d R p _ _ C' C). apply ss_old.
  - assert (R1 : reachable d1) by (eapply (reach_step d bl o); eauto).
    destruct (kids_at d1 R1 p) as (l1 & C1). pose proof (mv_run d R bl o d1 HV E p l l1 C C1) as S1.
    specialize (IH R1 p l1 l' C1 C'). pose proof (g_run bl o d) as Gr. rewrite E in Gr. destruct Gr as (_ & Le & _).
    apply (ss_old2 (length (nodes d))) in IH. rewrite old_old in IH by exact Le. eapply ss_trans; eauto.
Qed.
Lemma hist_parent d os d' p l' c : reachable d -> history d os d' -> children d' p l' -> In c l' -> node_id d c ->
  exists l, children d p l /\ In c l.
Proof.
  intros R H C' Hc (_ & Lc). destruct (kids_at d R p) as (l & C). exists l. split; auto.
  eapply ss_in; [eapply hist_moves; eauto|]. apply filter_In. split; auto. now apply Nat.ltb_lt.
Qed.
Lemma hist_detached d os d' c : reachable d -> history d os d' -> node_id d c -> ~ attached d c -> ~ attached d' c.
Proof.
  intros R H Nc NA (p & l' & P0 & C' & Hc). destruct (hist_parent d os d' p l' c R H C' Hc Nc) as (l & C & Hl).
  apply NA. exists p, l. auto.
Qed.

(** A call that makes an element returns an id that was not in use. *)
Lemma fresh_id d : reachable d -> forall p e x d',
  (node_id d p /\ append_document_node p e d = Ok (x, d')) \/
  (node_id d p /\ prepend_document_node p e d = Ok (x, d')) \/
  (attached d p /\ replace_with_document_node p e d = Ok (x, d')) ->
  length (nodes d) <= x /\ node_id d' x.
Proof.
  intros R p e x d' H.
  assert (Q : x = length (nodes d) /\ kind d' x = Some TDocument).
  { destruct H as [(Np & E)|[(Np & E)|((q & l & P0 & Hl & Hc) & E)]].
    - destruct (kids_at d R p) as (l & Hl).
      pose proof (gives_ok _ _ _ _ _ (u_append_doc d R p e l Np Hl) E) as (-> & _ & _ & _ & D & _).
      split; auto. unfold elem_content, content in D. congruence.
    - destruct (kids_at d R p) as (l & Hl).
      pose proof (gives_ok _ _ _ _ _ (u_prepend_doc d R p e l Np Hl) E) as (-> & _ & _ & _ & D & _).
      split; auto. unfold elem_content, content in D. congruence.
    - apply in_split in Hc. destruct Hc as (l1 & l2 & ->).
      pose proof (gives_ok _ _ _ _ _ (u_replace_doc d R q p l1 l2 e Hl) E) as (-> & _ & _ & _ & D & _).
      split; auto. unfold elem_content, content in D. congruence. }
  destruct Q as (-> & K). split; [lia|]. split.
  - assert (node_id d 1); [|destruct H0; lia]. destruct (reachable_good d R) as [k G].
    pose proof (ty_one _ _ (g_ty _ _ G)) as T1. unfold kind in T1. split; [lia|]. apply nth_error_Some.
    destruct (nth_error (nodes d) 1); discriminate.
  - unfold kind in K. apply nth_error_Some. destruct (nth_error (nodes d') _); discriminate.
Qed.

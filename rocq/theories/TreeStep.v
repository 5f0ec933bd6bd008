(** * Every editing call is a step of the tree machine (C84): calls without HTML. *)
From Coq Require Import List NArith Arith Bool Lia.
From Verif Require Import Base TrieModel DomModel ParserModel EditModel DomSpec ApiSpec GrammarSpec ReaderSpec
  TreeSpec TreeProofs EditUser ReadUser.
Import ListNotations.
Local Open Scope nat_scope.

(** Old nodes outside [X] keep their content, outside [Y] their children. *)
Definition frame (d d' : dom) (X Y : list nat) : Prop :=
  (forall q, q < length (nodes d) -> ~ In q X -> content d' q = content d q) /\
  (forall q m, q < length (nodes d) -> ~ In q Y -> children d q m -> children d' q m).

Lemma frame_but d d' X Y : keeps_but d d' X -> same_children_but d d' Y -> frame d d' X Y.
Proof. intros K S. split; intros q; [intros; now apply K|intros m _ H; now apply S]. Qed.

Lemma frame_view d d' X Y v : frame d d' X Y -> view d v ->
  (forall q, In q (ids v) -> q < length (nodes d) /\ ~ In q X /\ ~ In q Y) -> view d' v.
Proof.
  intros (F1 & F2) H A. apply (view_keep d); auto.
  - intros q Hq. destruct (A q Hq) as (B & C & D). auto.
  - intros q m Hq. destruct (A q Hq) as (B & C & D). auto.
Qed.

Section Edits.
  Context (d : dom) (R : reachable d) (T : vtree) (HT : view d T) (HV : vid T = 1).
  Notation n := (length (nodes d)).

  Lemma one_lt : 1 < n.
  Proof.
    destruct T as [i l ks]. simpl in HV. subst i. apply view_inv in HT. destruct HT as (E & _).
    unfold content in E. assert (K : kind d 1 = Some (l_kind l)) by congruence. unfold kind in K.
    destruct (nth_error (nodes d) 1) eqn:Q; [|discriminate]. apply nth_error_Some. congruence.
  Qed.
  Lemma T_bound q : In q (ids T) -> 1 <= q < n.
  Proof. intros H. rewrite <- HV. apply (view_bound d R T); auto. rewrite HV. apply one_lt. Qed.

  Lemma node_edit d' p f X Y : frame d d' X Y ->
    (forall x, In x X \/ In x Y -> below_eq d p x \/ n <= x) ->
    (forall t, vid t = p -> vid (f t) = p) ->
    (forall l ks, view d (V p l ks) -> NoDup (p :: flat_map ids ks) ->
       (forall q, In q (p :: flat_map ids ks) -> q < n) -> view d' (f (V p l ks))) ->
    view d' (at_node p f T).
  Proof.
    intros F B Hv H. eapply view_at_node; eauto.
    - intros [i l ks] S Vt ND E. simpl in E. subst i. split; [|auto]. apply H; auto.
      intros q Hq. apply T_bound. eapply sub_ids; eauto.
    - intros q Hq NB. pose proof (T_bound q Hq) as L. destruct F as (F1 & F2). split.
      + apply F1; [lia|]. intros Hx. destruct (B q (or_introl Hx)) as [C|C]; [tauto|lia].
      + intros m. apply F2; [lia|]. intros Hx. destruct (B q (or_intror Hx)) as [C|C]; [tauto|lia].
  Qed.

  Lemma child_edit d' p c f X Y l1 l2 : children d p (l1 ++ c :: l2) -> frame d d' X Y ->
    (forall x, In x X \/ In x Y -> below_eq d p x \/ n <= x) ->
    (forall l a k b, view d (V p l (a ++ k :: b)) -> NoDup (p :: flat_map ids (a ++ k :: b)) ->
       (forall q, In q (p :: flat_map ids (a ++ k :: b)) -> q < n) ->
       map vid a = l1 -> vid k = c -> map vid b = l2 -> view d' (V p l (f a b))) ->
    view d' (at_child c f T).
  Proof.
    intros Hp F B H. eapply view_at_child; eauto.
    - intros l a k b Vt ND E1 E2 E3. eapply H; eauto. intros q Hq.
      destruct (kid_bounds d R p _ c Hp) as (A1 & A2); [apply in_or_app; simpl; auto|].
      apply (view_bound d R _ q Vt); simpl; auto. lia.
    - intros q Hq NB. pose proof (T_bound q Hq) as L. destruct F as (F1 & F2). split.
      + apply F1; [lia|]. intros Hx. destruct (B q (or_introl Hx)) as [C|C]; [tauto|lia].
      + intros m. apply F2; [lia|]. intros Hx. destruct (B q (or_intror Hx)) as [C|C]; [tauto|lia].
  Qed.

  (** The call happens outside the document tree or changes nothing in it. *)
  Lemma frame_all d' X Y : frame d d' X Y -> (forall x, In x X \/ In x Y -> n <= x) -> view d' T.
  Proof.
    intros F B. eapply frame_view; eauto. intros q Hq. pose proof (T_bound q Hq).
    split; [lia|]. split; intros Hx; assert (n <= q) by auto; lia.
  Qed.

  Lemma below_kid p l c x : children d p l -> In c l -> below_eq d c x -> below_eq d p x.
  Proof. intros. econstructor; eauto. Qed.
  Lemma below_pre p l1 c l2 D x : children d p (l1 ++ c :: l2) -> preorder d c D -> In x D -> below_eq d p x.
  Proof.
    intros Hp P Hx. assert (Hc : In c (l1 ++ c :: l2)) by (apply in_or_app; simpl; auto).
    destruct (kid_bounds d R p _ c Hp Hc) as (A1 & A2).
    eapply below_kid; [exact Hp|exact Hc|].
    destruct (u_preorder d R c) as (l & _ & _ & U & B); [lia|]. apply B. now rewrite <- (U _ P).
  Qed.
  Lemma below_pres : forall l D x, preorders d l D -> (forall c, In c l -> c <> 0) -> In x D ->
    exists c, In c l /\ below_eq d c x.
  Proof.
    intros l D x P. induction P as [|c cs l ls P _ IH]; intros Z Hx; [destruct Hx|].
    apply in_app_or in Hx. destruct Hx as [Hx|Hx].
    - exists c. split; [now left|]. destruct (u_preorder d R c) as (m & _ & _ & U & B); [apply Z; now left|].
      apply B. now rewrite <- (U _ P).
    - destruct IH as (c' & A & B); auto. { intros; apply Z; now right. } exists c'. split; auto. now right.
  Qed.
End Edits.

(** ** Texts at the ends of child lists *)
Lemma text_end_dec d l : (exists c old, ends_with_text d l c old) \/ no_text_end d l.
Proof.
  destruct l as [|x l0]; [right; intros l0 c E; destruct l0; discriminate|].
  destruct (@exists_last _ (x :: l0)) as (l & c & E); [discriminate|]. rewrite E.
  destruct (text_of d c) as [s|] eqn:Et.
  - left. exists c, s. split; eauto.
  - right. intros l' c' E'. apply app_inj_tail in E'. destruct E' as (_ & <-). exact Et.
Qed.
Lemma text_start_dec d l : (exists c old, starts_with_text d l c old) \/ no_text_start d l.
Proof.
  destruct l as [|c l]; [right; intros l0 c E; discriminate|].
  destruct (text_of d c) as [s|] eqn:Et.
  - left. exists c, s. split; eauto.
  - right. intros l' c' E'. congruence.
Qed.

Lemma last_text_app ks k : last_text (ks ++ [k]) = vtext k.
Proof. induction ks as [|a ks IH]; [reflexivity|]. simpl. destruct (ks ++ [k]) eqn:E; [destruct ks; discriminate|]. exact IH. Qed.
Lemma retext_last_app s ks k : retext_last s (ks ++ [k]) = ks ++ [with_text s k].
Proof. induction ks as [|a ks IH]; [reflexivity|]. simpl. destruct (ks ++ [k]) eqn:E; [destruct ks; discriminate|]. now rewrite IH. Qed.

Lemma last_text_some d ks c old : Forall (view d) ks -> ends_with_text d (map vid ks) c old ->
  exists ks0 k, ks = ks0 ++ [k] /\ vid k = c /\ vtext k = Some old /\ last_text ks = Some old.
Proof.
  intros F ((l0 & E) & Et). apply map_eq_app in E. destruct E as (ks0 & kk & -> & _ & E).
  destruct kk as [|k [|]]; try discriminate. injection E as E.
  exists ks0, k. rewrite last_text_app. apply Forall_app in F. destruct F as (_ & F). inversion F; subst.
  assert (Q : text_of d (vid k) = vtext k) by (apply view_text; auto). rewrite Q in Et. auto.
Qed.
Lemma last_text_none d ks : Forall (view d) ks -> no_text_end d (map vid ks) -> last_text ks = None.
Proof.
  intros F H. destruct ks as [|x l0]; [reflexivity|].
  destruct (@exists_last _ (x :: l0)) as (l & c & E); [discriminate|]. rewrite E in *.
  rewrite last_text_app. apply Forall_app in F. destruct F as (_ & F). inversion F; subst.
  rewrite <- (view_text d c) by auto. apply (H (map vid l)). now rewrite map_app.
Qed.
Lemma first_text_some d ks c old : Forall (view d) ks -> starts_with_text d (map vid ks) c old ->
  exists k ks0, ks = k :: ks0 /\ vid k = c /\ vtext k = Some old /\ first_text ks = Some old.
Proof.
  intros F ((l0 & E) & Et). destruct ks as [|k ks]; [discriminate|]. injection E as E _.
  exists k, ks. inversion F; subst. rewrite (view_text d k) in Et by auto. auto.
Qed.
Lemma first_text_none d ks : Forall (view d) ks -> no_text_start d (map vid ks) -> first_text ks = None.
Proof.
  intros F H. destruct ks as [|k ks]; [reflexivity|]. inversion F; subst. simpl.
  rewrite <- (view_text d k) by auto. eapply H. reflexivity.
Qed.

Lemma with_text_vid s k : vid (with_text s k) = vid k.
Proof. destruct k; reflexivity. Qed.
Lemma map_retext_last s : forall ks, map vid (retext_last s ks) = map vid ks.
Proof.
  induction ks as [|k ks IH]; [reflexivity|]. destruct ks as [|k' ks].
  - simpl. now rewrite with_text_vid.
  - change (map vid (retext_last s (k :: k' :: ks))) with (vid k :: map vid (retext_last s (k' :: ks))).
    now rewrite IH.
Qed.
Lemma map_retext_first s ks : map vid (retext_first s ks) = map vid ks.
Proof. destruct ks; simpl; auto. now rewrite with_text_vid. Qed.

(** A text node gets another text. *)
Lemma view_retext d d' X Y k old s : frame d d' X Y -> view d k -> vtext k = Some old -> retexted d d' (vid k) s ->
  NoDup (ids k) -> (forall q, In q (ids k) -> q < length (nodes d) /\ ~ In q Y /\ (q <> vid k -> ~ In q X)) ->
  view d' (with_text s k).
Proof.
  intros F H Et RT ND A. destruct k as [i l ks]. pose proof (view_inv _ _ _ _ H) as (E & C & FF).
  simpl in *. unfold vtext in Et. simpl in Et. destruct F as (F1 & F2). apply NoDup_cons_iff in ND. destruct ND as (N1 & N2).
  constructor; simpl.
  - destruct RT as (K & X1 & X2 & X3). unfold content in *.
    assert (K0 : kind d i = Some (l_kind l)) by congruence. assert (G0 : tag_name d i = l_tag l) by congruence.
    assert (T0 : text_of d i = l_text l) by congruence. assert (B0 : bool_attrs d i = l_bools l) by congruence.
    assert (P0 : attrs d i = l_props l) by congruence.
    assert (tag_name d' i = None).
    { unfold kind in K. unfold tag_name. destruct (nth_error (nodes d') i) as [[j ty pl]|]; auto.
      injection K as K. subst ty. reflexivity. }
    assert (l_kind l = TText /\ l_tag l = None) as (L1 & L2).
    { rewrite <- G0. rewrite Et in T0. clear -K0 T0. unfold kind, text_of, tag_name in *.
      destruct (nth_error (nodes d) i) as [[j ty pl]|]; [|discriminate]. destruct ty; try discriminate.
      simpl in K0. split; congruence. }
    congruence.
  - apply F2; auto; [apply A; now left|]. apply (A i). now left.
  - rewrite Forall_forall in *. intros k Hk. apply (view_keep d); auto.
    + intros q Hq. assert (Q : In q (flat_map ids ks)) by (apply in_flat_map; eauto).
      destruct (A q) as (A1 & A2 & A3); [now right|]. apply F1; auto. apply A3. intros ->. tauto.
    + intros q m Hq. assert (Q : In q (flat_map ids ks)) by (apply in_flat_map; eauto).
      destruct (A q) as (A1 & A2 & A3); [now right|]. apply F2; auto.
Qed.

(** The node itself keeps its content. *)
Lemma kept_node d d' X Y p l ks ks' : frame d d' X Y -> view d (V p l ks) -> p < length (nodes d) -> ~ In p X ->
  children d' p (map vid ks') -> Forall (view d') ks' -> view d' (V p l ks').
Proof.
  intros (F1 & F2) H L NX C F. apply view_inv in H. destruct H as (E & _). constructor; auto.
  rewrite F1; auto.
Qed.
(** The children of a node that are not touched. *)
Lemma kept_kids d d' X Y ks : frame d d' X Y -> Forall (view d) ks ->
  (forall q, In q (flat_map ids ks) -> q < length (nodes d) /\ ~ In q X /\ ~ In q Y) -> Forall (view d') ks.
Proof.
  intros F H A. rewrite Forall_forall in *. intros k Hk. apply (frame_view d d' X Y); auto.
  intros q Hq. apply A. apply in_flat_map. eauto.
Qed.
Lemma kids_of d p l ks : view d (V p l ks) -> children d p (map vid ks) /\ Forall (view d) ks.
Proof. intros H. apply view_inv in H. tauto. Qed.
Lemma vid_in ks k : In k ks -> In (vid k) (flat_map ids ks).
Proof. intros H. apply in_flat_map. exists k. split; auto. apply in_ids_vid. Qed.

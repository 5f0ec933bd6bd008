(** * Views of a DOM: basic facts (C84). *)
From Coq Require Import List NArith Arith Bool Lia.
From Verif Require Import Base TrieModel DomModel ParserModel EditModel DomSpec ApiSpec GrammarSpec ReaderSpec
  TreeSpec ReadUser.
Import ListNotations.
Local Open Scope nat_scope.

Section Induct.
  Context (P : vtree -> Prop).
  Context (H : forall i l ks, Forall P ks -> P (V i l ks)).
  Fixpoint vtree_induct (v : vtree) : P v :=
    match v with
    | V i l ks => H i l ks ((fix go ks := match ks return Forall P ks with
                             | [] => Forall_nil P
                             | k :: ks' => Forall_cons k (vtree_induct k) (go ks')
                             end) ks)
    end.
End Induct.

(** Subtrees. *)
Inductive sub (t : vtree) : vtree -> Prop :=
| sub_refl : sub t t
| sub_kid i l ks k : In k ks -> sub t k -> sub t (V i l ks).

Lemma view_inv d i l ks : view d (V i l ks) ->
  content d i = (Some (l_kind l), l_tag l, l_text l, l_bools l, l_props l) /\
  children d i (map vid ks) /\ Forall (view d) ks.
Proof. intros H. inversion H; subst. auto. Qed.

Lemma view_kids d v : view d v -> children d (vid v) (map vid (vkids v)).
Proof. destruct v as [i l ks]. intros H. apply view_inv in H. apply H. Qed.

Lemma in_ids_vid v : In (vid v) (ids v).
Proof. destruct v. left. reflexivity. Qed.

Lemma sub_view d t T : sub t T -> view d T -> view d t.
Proof.
  induction 1 as [|i l ks k Hk _ IH]; auto. intros H. apply view_inv in H. destruct H as (_ & _ & F).
  apply IH. rewrite Forall_forall in F. now apply F.
Qed.
Lemma sub_ids t T x : sub t T -> In x (ids t) -> In x (ids T).
Proof.
  induction 1 as [|i l ks k Hk _ IH]; auto. intros H. right. apply in_flat_map. exists k. auto.
Qed.
Lemma ids_sub x : forall T, In x (ids T) -> exists t, sub t T /\ vid t = x.
Proof.
  induction T as [i l ks IH] using vtree_induct. intros [->|H].
  - exists (V x l ks). split; [constructor|reflexivity].
  - apply in_flat_map in H. destruct H as (k & Hk & Hx). rewrite Forall_forall in IH.
    destruct (IH k Hk Hx) as (t & S & E). exists t. split; auto. econstructor; eauto.
Qed.

Lemma view_preorder d : forall v, view d v -> preorder d (vid v) (ids v).
Proof.
  induction v as [i l ks IH] using vtree_induct. intros H. apply view_inv in H. destruct H as (_ & C & F).
  simpl. econstructor; [exact C|]. clear C. induction ks as [|k ks IHks]; simpl; [constructor|].
  inversion IH; subst. inversion F; subst. constructor; auto.
Qed.

Lemma view_below d v x : view d v -> (In x (ids v) -> below_eq d (vid v) x).
Proof.
  revert x. induction v as [i l ks IH] using vtree_induct. intros x H [->|Hx]; [constructor|].
  apply view_inv in H. destruct H as (_ & C & F). apply in_flat_map in Hx. destruct Hx as (k & Hk & Hx).
  rewrite Forall_forall in IH, F. econstructor; [exact C|apply in_map; exact Hk|]. apply IH; auto.
Qed.

Lemma view_keep d d' : forall v, view d v ->
  (forall q, In q (ids v) -> content d' q = content d q) ->
  (forall q m, In q (ids v) -> children d q m -> children d' q m) -> view d' v.
Proof.
  induction v as [i l ks IH] using vtree_induct. intros H HC HK. apply view_inv in H. destruct H as (E & C & F).
  constructor.
  - rewrite HC; auto. now left.
  - apply HK; auto. now left.
  - rewrite Forall_forall in *. intros k Hk. apply IH; auto.
    + intros q Hq. apply HC. right. apply in_flat_map. eauto.
    + intros q m Hq. apply HK. right. apply in_flat_map. eauto.
Qed.

Lemma view_text d v : view d v -> text_of d (vid v) = vtext v.
Proof. destruct v as [i l ks]. intros H. apply view_inv in H. destruct H as (E & _). unfold content in E. change (text_of d i = l_text l). congruence. Qed.

(** ** Within one reachable DOM *)
Section Reach.
  Context (d : dom) (R : reachable d).

  Lemma kids_fun p l l' : children d p l -> children d p l' -> l = l'.
  Proof. destruct (u_children d R p) as (l0 & _ & _ & U & _). intros A B. rewrite (U _ A), (U _ B). reflexivity. Qed.
  Lemma parent_fun p q l m c : children d p l -> children d q m -> In c l -> In c m -> q = p.
  Proof.
    intros A B C D. destruct (u_children d R p) as (l0 & A0 & _ & U & _ & V0).
    rewrite (U _ A) in C. eapply V0; eauto.
  Qed.
  Lemma kid_bounds p l c : children d p l -> In c l -> 1 <= p < c /\ c < length (nodes d).
  Proof.
    intros A C. destruct (u_children d R p) as (l0 & A0 & _ & U & W & _).
    rewrite (U _ A) in C. destruct (W _ C) as (X & Y & _). auto.
  Qed.
  Lemma kids_nodup p l : children d p l -> NoDup l.
  Proof. destruct (u_children d R p) as (l0 & _ & ND & U & _). intros A. now rewrite (U _ A). Qed.

  Lemma view_nodup v : view d v -> vid v <> 0 -> NoDup (ids v).
  Proof.
    intros H Z. destruct (u_preorder d R (vid v) Z) as (l & _ & ND & U & _).
    now rewrite (U _ (view_preorder _ _ H)).
  Qed.
  Lemma view_below_iff v x : view d v -> vid v <> 0 -> (In x (ids v) <-> below_eq d (vid v) x).
  Proof.
    intros H Z. destruct (u_preorder d R (vid v) Z) as (l & _ & _ & U & B).
    rewrite (U _ (view_preorder _ _ H)). apply B.
  Qed.
  Lemma below_bound p x : below_eq d p x -> p < length (nodes d) -> p <= x < length (nodes d).
  Proof.
    induction 1 as [|n c l x Hl Hc _ IH]; intros L; [lia|].
    destruct (kid_bounds _ _ _ Hl Hc). lia.
  Qed.
  Lemma view_bound v x : view d v -> vid v < length (nodes d) -> In x (ids v) -> vid v <= x < length (nodes d).
  Proof. intros H L Hx. eapply below_bound; eauto. now apply view_below. Qed.

  (** The document tree is closed upwards. *)
  Lemma up_kid : forall T, view d T -> forall p l c, children d p l -> In c l -> In c (ids T) ->
    c = vid T \/ In p (ids T).
  Proof.
    induction T as [i la ks IH] using vtree_induct. intros H p l c Hl Hc [E|Hx]; [left; auto|right].
    pose proof (view_inv _ _ _ _ H) as (_ & C & F). apply in_flat_map in Hx. destruct Hx as (k & Hk & Hx).
    rewrite Forall_forall in IH, F. destruct (IH k Hk (F k Hk) p l c Hl Hc Hx) as [E|E].
    - subst c. left. eapply parent_fun; [exact Hl|exact C|exact Hc|]. now apply in_map.
    - right. apply in_flat_map. eauto.
  Qed.
  Lemma up_below T p x : view d T -> vid T = 1 -> below_eq d p x -> In x (ids T) -> In p (ids T).
  Proof.
    intros H V1. induction 1 as [|n c l x Hl Hc _ IH]; auto. intros Hx. specialize (IH Hx).
    destruct (up_kid _ H _ _ _ Hl Hc IH) as [E|E]; auto.
    destruct (kid_bounds _ _ _ Hl Hc). lia.
  Qed.
  Lemma below_in T p x : view d T -> vid T = 1 -> below_eq d p x -> In x (ids T) ->
    exists t, sub t T /\ vid t = p /\ In x (ids t).
  Proof.
    intros H V1 B Hx. pose proof (up_below _ _ _ H V1 B Hx) as Hp. destruct (ids_sub _ _ Hp) as (t & S & E).
    exists t. split; [auto|]. split; auto. pose proof (sub_view _ _ _ S H) as Vt.
    assert (Z : p <> 0).
    { assert (B1 : below_eq d 1 p) by (rewrite <- V1; apply view_below; auto).
      clear -B1 R. remember 1 as o eqn:Eo. assert (o <> 0) by lia. clear Eo.
      induction B1 as [|n c l y Hl Hc _ IH]; auto. destruct (kid_bounds _ _ _ Hl Hc). lia. }
    apply view_below_iff; auto; rewrite E; auto.
  Qed.
End Reach.

(** ** Editing at a node *)
Lemma NoDup_app_l {A} (a b : list A) : NoDup (a ++ b) -> NoDup a.
Proof.
  induction a; simpl; [constructor|]. rewrite !NoDup_cons_iff. intros (X & Y). split; auto.
  intros Z. apply X. apply in_or_app. auto.
Qed.
Lemma NoDup_app_r {A} (a b : list A) : NoDup (a ++ b) -> NoDup b.
Proof. induction a; simpl; auto. rewrite NoDup_cons_iff. tauto. Qed.
Lemma NoDup_app_disj {A} (a b : list A) x : NoDup (a ++ b) -> In x a -> ~ In x b.
Proof.
  induction a; simpl; [tauto|]. rewrite NoDup_cons_iff. intros (X & Y) [->|Z].
  - intros W. apply X. apply in_or_app. auto.
  - auto.
Qed.
Lemma flat_nodup {A B} (f : A -> list B) ks k : NoDup (flat_map f ks) -> In k ks -> NoDup (f k).
Proof.
  induction ks as [|a ks IH]; simpl; [tauto|]. intros H [->|Hk].
  - eapply NoDup_app_l; eauto.
  - apply IH; auto. eapply NoDup_app_r; eauto.
Qed.
Lemma flat_disj {A B} (f : A -> list B) ks k k' x : NoDup (flat_map f ks) -> In k ks -> In k' ks ->
  In x (f k) -> In x (f k') -> k = k'.
Proof.
  induction ks as [|a ks IH]; simpl; [tauto|]. intros H [->|Hk] [->|Hk'] X Y; auto.
  - destruct (NoDup_app_disj _ _ _ H X). apply in_flat_map. eauto.
  - destruct (NoDup_app_disj _ _ _ H Y). apply in_flat_map. eauto.
  - apply IH; auto. eapply NoDup_app_r; eauto.
Qed.

Lemma at_node_vid p f v : (vid v = p -> vid (f v) = p) -> vid (at_node p f v) = vid v.
Proof. destruct v as [i l ks]. simpl. intros H. destruct (Nat.eqb_spec i p); auto. rewrite H; auto. Qed.

Lemma view_at_gen d d' p f : forall T, view d T -> NoDup (ids T) ->
  (forall t, sub t T -> vid t = p -> view d' (f t) /\ vid (f t) = p) ->
  (forall q, In q (ids T) -> (forall t, sub t T -> vid t = p -> ~ In q (ids t)) ->
     content d' q = content d q /\ (forall m, children d q m -> children d' q m)) ->
  view d' (at_node p f T).
Proof.
  induction T as [i l ks IH] using vtree_induct. intros H ND HF HO.
  simpl. destruct (Nat.eqb_spec i p) as [E|E].
  { apply (HF (V i l ks)); [constructor|exact E]. }
  pose proof (view_inv _ _ _ _ H) as (E1 & C & F). simpl in ND. apply NoDup_cons_iff in ND. destruct ND as (N1 & N2).
  destruct (HO i) as (X & Y).
  - now left.
  - intros t S Et Hi. inversion S; subst; [now apply E|]. apply N1. apply in_flat_map. exists k. split; auto.
    eapply sub_ids; eauto.
  - constructor.
    + now rewrite X.
    + rewrite map_map. erewrite map_ext_in; [apply Y; exact C|]. intros k Hk. apply at_node_vid.
      intros Ek. apply (HF k); auto. econstructor; eauto. constructor.
    + rewrite Forall_forall in *. intros v Hv. apply in_map_iff in Hv. destruct Hv as (k & <- & Hk).
      apply IH; auto.
      * eapply flat_nodup; eauto.
      * intros t S Et. apply HF; auto. econstructor; eauto.
      * intros q Hq Out. apply HO; [right; apply in_flat_map; eauto|]. intros t S Et Hqt.
        inversion S; subst; [now apply E|]. assert (k = k0); [|subst k0; eapply Out; eauto].
        eapply flat_disj; eauto. eapply sub_ids; eauto.
Qed.

Lemma view_at_node d d' p f T : reachable d -> view d T -> vid T = 1 ->
  (forall t, sub t T -> view d t -> NoDup (ids t) -> vid t = p -> view d' (f t) /\ vid (f t) = p) ->
  (forall q, In q (ids T) -> ~ below_eq d p q ->
     content d' q = content d q /\ (forall m, children d q m -> children d' q m)) ->
  view d' (at_node p f T).
Proof.
  intros R H V1 HF HO. assert (ND : NoDup (ids T)) by (eapply view_nodup; eauto; lia).
  apply (view_at_gen d); auto.
  - intros t S E. apply HF; auto.
    + eapply sub_view; eauto.
    + eapply view_nodup; eauto. eapply sub_view; eauto.
      pose proof (sub_ids _ _ _ S (in_ids_vid t)) as X.
      apply (view_below d) in X; auto. rewrite V1 in X. remember 1 as o eqn:Eo. assert (o <> 0) by lia. clear -X R H0.
      induction X as [|n c l y Hl Hc _ IH]; auto. destruct (kid_bounds d R _ _ _ Hl Hc). lia.
  - intros q Hq Out. apply HO; auto. intros B. destruct (below_in d R T p q) as (t & S & E & X); auto.
    eapply Out; eauto.
Qed.

(** ** Editing next to a child *)
Lemma split_at_some c : forall ks a b, split_at c ks = Some (a, b) ->
  exists k, ks = a ++ k :: b /\ vid k = c.
Proof.
  induction ks as [|k ks IH]; simpl; [discriminate|]. intros a b. destruct (Nat.eqb_spec (vid k) c) as [E|E].
  - intros X. injection X as <- <-. exists k. auto.
  - destruct (split_at c ks) as [[a0 b0]|]; [|discriminate]. intros X. injection X as <- <-.
    destruct (IH _ _ eq_refl) as (k0 & -> & Ek). exists k0. auto.
Qed.
Lemma split_at_none c : forall ks, split_at c ks = None -> ~ In c (map vid ks).
Proof.
  induction ks as [|k ks IH]; simpl; [tauto|]. destruct (Nat.eqb_spec (vid k) c) as [E|E]; [discriminate|].
  destruct (split_at c ks) as [[a0 b0]|]; [discriminate|]. intros _ [X|X]; auto. now apply IH.
Qed.
Lemma split_at_mid c a k b : vid k = c -> ~ In c (map vid a) -> split_at c (a ++ k :: b) = Some (a, b).
Proof.
  intros E. induction a as [|x a IH]; simpl.
  - intros _. destruct (Nat.eqb_spec (vid k) c); congruence.
  - intros N. destruct (Nat.eqb_spec (vid x) c); [tauto|]. rewrite IH; tauto.
Qed.

(** [at_child] edits the parent. *)
Lemma at_child_node d p c f l1 l2 : reachable d -> children d p (l1 ++ c :: l2) -> forall T, view d T -> NoDup (ids T) ->
  at_child c f T = at_node p (fun t => match t with V i l ks =>
     match split_at c ks with Some (a, b) => V i l (f a b) | None => V i l ks end end) T.
Proof.
  intros R Hp. induction T as [i l ks IH] using vtree_induct. intros H ND.
  pose proof (view_inv _ _ _ _ H) as (_ & C & F). simpl in *. apply NoDup_cons_iff in ND. destruct ND as (N1 & N2).
  destruct (split_at c ks) as [[a b]|] eqn:Es.
  - destruct (split_at_some _ _ _ _ Es) as (k & -> & Ek).
    assert (Ei : i = p).
    { eapply (parent_fun d R); [exact Hp|exact C| |].
      - apply in_or_app. simpl. auto.
      - rewrite <- Ek. apply in_map. apply in_or_app. simpl. auto. }
    subst i. rewrite Nat.eqb_refl. reflexivity.
  - destruct (Nat.eqb_spec i p) as [E|E].
    + subst i. exfalso. apply (split_at_none _ _ Es). rewrite (kids_fun d R _ _ _ C Hp). apply in_or_app. simpl. auto.
    + f_equal. apply map_ext_in. intros k Hk. rewrite Forall_forall in *. apply IH; auto. eapply flat_nodup; eauto.
Qed.

Lemma view_at_child d d' p c f T l1 l2 : reachable d -> view d T -> vid T = 1 -> children d p (l1 ++ c :: l2) ->
  (forall l a k b, view d (V p l (a ++ k :: b)) -> NoDup (ids (V p l (a ++ k :: b))) ->
     map vid a = l1 -> vid k = c -> map vid b = l2 -> view d' (V p l (f a b))) ->
  (forall q, In q (ids T) -> ~ below_eq d p q ->
     content d' q = content d q /\ (forall m, children d q m -> children d' q m)) ->
  view d' (at_child c f T).
Proof.
  intros R H V1 Hp HF HO. assert (ND : NoDup (ids T)) by (eapply view_nodup; eauto; lia).
  rewrite (at_child_node d p c f l1 l2); auto. eapply view_at_node; eauto.
  intros [i l ks] S Vt Nt E. simpl in E. subst i. pose proof (view_inv _ _ _ _ Vt) as (_ & C & _).
  pose proof (kids_fun d R _ _ _ C Hp) as Em. apply map_eq_app in Em. destruct Em as (a & kb & -> & Ea & Ekb).
  destruct kb as [|k b]; [discriminate|]. injection Ekb as Ek Eb.
  rewrite split_at_mid; auto.
  - split; auto. eapply HF; eauto.
  - pose proof (kids_nodup d R _ _ Hp) as X. apply NoDup_remove_2 in X. rewrite Ea. intros Y. apply X.
    apply in_or_app. auto.
Qed.

(** * Laws of editing, on DOMs (C85). *)
From Coq Require Import List NArith Arith Bool Lia.
From Verif Require Import Base TrieModel DomModel ParserModel EditModel ReadModel DomSpec ApiSpec GrammarSpec ReaderSpec
  TreeSpec Lemmas TreeProofs TreeStep TreeOps TreeNumber TreeHtml TreeReplace TreeUser TreeLaws RegProofs AttrProofs
  ApiProofs EditUser ReadUser.
Import ListNotations.
Local Open Scope nat_scope.

Lemma root_view d : reachable d -> exists T, view d T /\ vid T = 1.
Proof. intros R. destruct (trace_ex d R) as (v & H). exists v. split; now apply (trace_ok d v). Qed.
Lemma look_intro d d' v : reachable d -> reachable d' -> view d v -> view d' v -> vid v = 1 -> looks_same d d'.
Proof.
  intros R R' H H' V1 w W1. split; intros K.
  - rewrite (view_unique d R w v); auto. congruence.
  - rewrite (view_unique d' R' w v); auto. congruence.
Qed.
Lemma look_refl d : looks_same d d.
Proof. intros v _. tauto. Qed.
Lemma look_sym d d' : looks_same d d' -> looks_same d' d.
Proof. intros H v V1. symmetry. auto. Qed.
Lemma look_trans a b c : looks_same a b -> looks_same b c -> looks_same a c.
Proof. intros H K v V1. rewrite (H v V1). auto. Qed.

Section Laws.
  Context (d : dom) (R : reachable d).
  Notation n := (length (nodes d)).

  Lemma attr_len bl a q d' : attr_of a = Some q -> valid d bl a -> run bl a d = Ok d' -> length (nodes d') = n.
  Proof.
    intros Ha HV E. destruct (reachable_good d R) as (k & G).
    destruct a as [| | | | | | | | | | | |n0 b|n0 k0 v|n0 b|n0 k0|n0 k0 v| | ]; try discriminate; cbn [valid] in HV; cbn [run] in E.
    - pose proof (add_bool_property_user d k n0 b G (proj2 HV)) as H. rewrite E in H. destruct H as (_ & ((X & _) & _) & _). now rewrite X.
    - pose proof (add_property_user d k n0 k0 v G (proj2 HV)) as H. rewrite E in H. destruct H as (_ & ((X & _) & _) & _). now rewrite X.
    - destruct (remove_bool_property_user d k n0 b G) as (d0 & E0 & _ & ((X & _) & _) & _); [destruct HV; lia|].
      rewrite E in E0. injection E0 as <-. now rewrite X.
    - destruct (remove_property_user d k n0 k0 G) as (d0 & E0 & _ & ((X & _) & _) & _); [destruct HV; lia|].
      rewrite E in E0. injection E0 as <-. now rewrite X.
    - apply pair_ok in E. destruct E as (ok & E).
      pose proof (set_property_value_user d k n0 k0 v G) as H. rewrite E in H. destruct H as (_ & _ & H1 & H2); [destruct HV; lia|].
      destruct ok; [destruct (H2 eq_refl) as (((X & _) & _) & _); now rewrite X|now rewrite H1].
  Qed.

  Lemma attr_id bl a q : attr_of a = Some q -> valid d bl a -> q < n.
  Proof. intros Ha HV. destruct a; try discriminate; injection Ha as ->; apply HV. Qed.

  Lemma law_commute bl bl' a o q d1 d2 d3 d4 : attr_of a = Some q -> attr_of o <> Some q ->
    valid d bl a -> run bl a d = Ok d1 -> valid d1 bl' o -> run bl' o d1 = Ok d2 ->
    valid d bl' o -> run bl' o d = Ok d3 -> valid d3 bl a -> run bl a d3 = Ok d4 -> looks_same d2 d4.
  Proof.
    intros Ha Ho V1 E1 V2 E2 V3 E3 V4 E4. destruct (root_view d R) as (T & HT & HV).
    assert (R1 : reachable d1) by (eapply (reach_step d bl a); eauto). assert (R2 : reachable d2) by (eapply (reach_step d1 bl' o); eauto).
    assert (R3 : reachable d3) by (eapply (reach_step d bl' o); eauto). assert (R4 : reachable d4) by (eapply (reach_step d3 bl a); eauto).
    pose proof (step_view d R T HT HV bl a d1 V1 E1) as W1.
    pose proof (step_view d1 R1 _ W1 (eq_trans (step_vid _ _ _ _) HV) bl' o d2 V2 E2) as W2.
    pose proof (step_view d R T HT HV bl' o d3 V3 E3) as W3.
    pose proof (step_view d3 R3 _ W3 (eq_trans (step_vid _ _ _ _) HV) bl a d4 V4 E4) as W4.
    rewrite (attr_len bl a q d1 Ha V1 E1) in W2.
    rewrite (step_swap bl bl' n a o q T Ha Ho (attr_id bl a q Ha V1)) in W2.
    rewrite (attr_step bl (length (nodes d3)) a q _ Ha), <- (attr_step bl n a q _ Ha) in W4.
    eapply look_intro; eauto. now rewrite !step_vid.
  Qed.

  (** Append (or prepend) and remove again. *)
  Lemma law_undo bl bl' o p d1 : (exists e, o = AppendDoc p e \/ o = PrependDoc p e) ->
    node_id d p -> run bl o d = Ok d1 ->
    exists d2, run bl' (Remove n) d1 = Ok d2 /\ attached d1 n /\ looks_same d d2.
  Proof.
    intros (e & Ho) Np E. destruct (root_view d R) as (T & HT & HV).
    assert (Vo : valid d bl o) by (destruct Ho as [-> | ->]; exact Np).
    assert (R1 : reachable d1) by (eapply reach_step; [exact R|exact Vo|exact E]).
    pose proof (step_view d R T HT HV bl o d1 Vo E) as W1.
    assert (exists a b, children d1 p (a ++ n :: b)) as (a & b & Hc).
    { destruct (u_children d R p) as (l & Hl & _). destruct Ho as [-> | ->].
      - apply pair_ok in E. destruct E as (x & E).
        destruct (gives_ok _ _ _ _ _ (u_append_doc d R p e l Np Hl) E) as (-> & A & _). eauto.
      - apply pair_ok in E. destruct E as (x & E).
        destruct (gives_ok _ _ _ _ _ (u_prepend_doc d R p e l Np Hl) E) as (-> & A & _). exists [], l. exact A. }
    assert (Hin : In n (a ++ n :: b)) by (apply in_or_app; simpl; auto).
    destruct (kid_bounds d1 R1 _ _ _ Hc Hin) as (B1 & B2).
    assert (At : attached d1 n) by (exists p, (a ++ n :: b); repeat split; auto; lia).
    destruct (u_preorder d1 R1 n) as (m & PD & _); [lia|].
    destruct (u_remove d1 R1 p n a b _ Hc PD) as (d2 & E2 & _).
    exists d2. split; [exact E2|]. split; [exact At|].
    assert (V2 : valid d1 bl' (Remove n)) by exact At.
    assert (R2 : reachable d2) by (eapply reach_step; [exact R1|exact V2|exact E2]).
    pose proof (step_view d1 R1 _ W1 (eq_trans (step_vid _ _ _ _) HV) bl' (Remove n) d2 V2 E2) as W2.
    cbn [step] in W2.
    rewrite remove_prune in W2 by (apply (view_nodup d1 R1); [exact W1|rewrite step_vid; lia]).
    assert (NT : ~ In n (ids T)) by (intros H; pose proof (T_bound d R T HT HV n H); lia).
    assert (EP : prune n (step bl n o T) = T).
    { destruct Ho as [-> | ->]; cbn [step]; apply prune_new; auto; intros ks N.
      - unfold keep. rewrite filter_app. fold (keep n ks). cbn [filter vid]. rewrite Nat.eqb_refl. cbn [negb].
        rewrite app_nil_r. apply keep_out. intros H. apply N. apply in_map_iff in H. destruct H as (k & <- & Hk). now apply vid_in.
      - unfold keep. cbn [filter vid]. rewrite Nat.eqb_refl. cbn [negb]. fold (keep n ks).
        apply keep_out. intros H. apply N. apply in_map_iff in H. destruct H as (k & <- & Hk). now apply vid_in. }
    rewrite EP in W2. eapply look_intro; eauto.
  Qed.

  Lemma sub_props T p t : view d T -> sub t T -> vid t = p ->
    l_props (vlabel t) = attrs d p /\ l_bools (vlabel t) = bool_attrs d p.
  Proof.
    intros H S E. pose proof (sub_view _ _ _ S H) as Ht. destruct t as [i l ks]. cbn in E. subst i.
    apply view_inv in Ht. destruct Ht as (Q & _). unfold content in Q. cbn [vlabel]. split; congruence.
  Qed.

  Lemma law_undo_prop bl bl' p k w d1 d2 : node_id d p -> ~ In k (map fst (attrs d p)) ->
    run bl (AddProp p k w) d = Ok d1 -> run bl' (RemoveProp p k) d1 = Ok d2 -> looks_same d d2.
  Proof.
    intros Np NI E1 E2. destruct (root_view d R) as (T & HT & HV).
    assert (V1 : valid d bl (AddProp p k w)) by exact Np.
    assert (R1 : reachable d1) by (eapply reach_step; [exact R|exact V1|exact E1]).
    assert (V2 : valid d1 bl' (RemoveProp p k)).
    { split; [apply Np|]. rewrite (attr_len bl (AddProp p k w) p d1 eq_refl V1 E1). apply Np. }
    assert (R2 : reachable d2) by (eapply reach_step; [exact R1|exact V2|exact E2]).
    pose proof (step_view d R T HT HV bl _ d1 V1 E1) as W1.
    pose proof (step_view d1 R1 _ W1 (eq_trans (step_vid _ _ _ _) HV) bl' _ d2 V2 E2) as W2.
    cbn [step] in W2. rewrite at_node_twice in W2 by (apply with_props_vid).
    rewrite at_node_id in W2; [eapply look_intro; eauto|].
    intros t S Et. destruct (sub_props T p t HT S Et) as (Ep & _). destruct t as [i l ks]. cbn [vlabel] in Ep.
    cbn [with_props l_kind l_tag l_text l_bools l_props]. rewrite (remove_first_at _ _ _ []), app_nil_r.
    - destruct l; reflexivity.
    - intros [k' w'] Hk. cbn [fst]. apply beq_neq. intros <-. apply NI. rewrite <- Ep. apply in_map_iff. exists (k, w'). auto.
    - apply beq_refl.
  Qed.
  Lemma law_undo_bool bl bl' p b d1 d2 : node_id d p -> ~ In b (bool_attrs d p) ->
    run bl (AddBool p b) d = Ok d1 -> run bl' (RemoveBool p b) d1 = Ok d2 -> looks_same d d2.
  Proof.
    intros Np NI E1 E2. destruct (root_view d R) as (T & HT & HV).
    assert (V1 : valid d bl (AddBool p b)) by exact Np.
    assert (R1 : reachable d1) by (eapply reach_step; [exact R|exact V1|exact E1]).
    assert (V2 : valid d1 bl' (RemoveBool p b)).
    { split; [apply Np|]. rewrite (attr_len bl (AddBool p b) p d1 eq_refl V1 E1). apply Np. }
    assert (R2 : reachable d2) by (eapply reach_step; [exact R1|exact V2|exact E2]).
    pose proof (step_view d R T HT HV bl _ d1 V1 E1) as W1.
    pose proof (step_view d1 R1 _ W1 (eq_trans (step_vid _ _ _ _) HV) bl' _ d2 V2 E2) as W2.
    cbn [step] in W2. rewrite at_node_twice in W2 by (apply with_bools_vid).
    rewrite at_node_id in W2; [eapply look_intro; eauto|].
    intros t S Et. destruct (sub_props T p t HT S Et) as (_ & Ep). destruct t as [i l ks]. cbn [vlabel] in Ep.
    cbn [with_bools l_kind l_tag l_text l_bools l_props]. rewrite (remove_first_at _ _ _ []), app_nil_r.
    - destruct l; reflexivity.
    - intros b' Hk. apply beq_neq. intros <-. apply NI. now rewrite <- Ep.
    - apply beq_refl.
  Qed.

  Lemma law_set_last bl p k w w' d1 d2 d3 : node_id d p ->
    run bl (SetProp p k w) d = Ok d1 -> run bl (SetProp p k w') d1 = Ok d2 -> run bl (SetProp p k w') d = Ok d3 ->
    looks_same d2 d3.
  Proof.
    intros Np E1 E2 E3. destruct (root_view d R) as (T & HT & HV).
    assert (V1 : valid d bl (SetProp p k w)) by exact Np. assert (V3 : valid d bl (SetProp p k w')) by exact Np.
    assert (R1 : reachable d1) by (eapply reach_step; [exact R|exact V1|exact E1]).
    assert (V2 : valid d1 bl (SetProp p k w')).
    { split; [apply Np|]. rewrite (attr_len bl (SetProp p k w) p d1 eq_refl V1 E1). apply Np. }
    assert (R2 : reachable d2) by (eapply reach_step; [exact R1|exact V2|exact E2]).
    assert (R3 : reachable d3) by (eapply reach_step; [exact R|exact V3|exact E3]).
    pose proof (step_view d R T HT HV bl _ d1 V1 E1) as W1.
    pose proof (step_view d1 R1 _ W1 (eq_trans (step_vid _ _ _ _) HV) bl _ d2 V2 E2) as W2.
    pose proof (step_view d R T HT HV bl _ d3 V3 E3) as W3.
    cbn [step] in W2, W3. rewrite at_node_twice in W2 by (apply with_props_vid).
    rewrite (at_node_ext p _ (with_props (set_first k w'))) in W2.
    - eapply look_intro; eauto. now rewrite at_node_vid' by (apply with_props_vid).
    - intros [i l ks]. cbn [with_props l_kind l_tag l_text l_bools l_props]. now rewrite set_first_twice.
  Qed.

  Lemma law_remove_commute bl c c' d1 d2 d3 d4 : attached d c -> attached d c' ->
    run bl (Remove c) d = Ok d1 -> attached d1 c' -> run bl (Remove c') d1 = Ok d2 ->
    run bl (Remove c') d = Ok d3 -> attached d3 c -> run bl (Remove c) d3 = Ok d4 -> looks_same d2 d4.
  Proof.
    intros V1 V3 E1 V2 E2 E3 V4 E4. destruct (root_view d R) as (T & HT & HV).
    assert (R1 : reachable d1) by (eapply (reach_step d bl (Remove c)); eauto).
    assert (R2 : reachable d2) by (eapply (reach_step d1 bl (Remove c')); eauto).
    assert (R3 : reachable d3) by (eapply (reach_step d bl (Remove c')); eauto).
    assert (R4 : reachable d4) by (eapply (reach_step d3 bl (Remove c)); eauto).
    pose proof (step_view d R T HT HV bl (Remove c) d1 V1 E1) as W1.
    pose proof (step_view d1 R1 _ W1 (eq_trans (step_vid _ _ _ _) HV) bl (Remove c') d2 V2 E2) as W2.
    pose proof (step_view d R T HT HV bl (Remove c') d3 V3 E3) as W3.
    pose proof (step_view d3 R3 _ W3 (eq_trans (step_vid _ _ _ _) HV) bl (Remove c) d4 V4 E4) as W4.
    cbn [step] in *.
    assert (ND : forall x X, reachable x -> view x X -> vid X = 1 -> NoDup (ids X)).
    { intros x X RX HX HX1. apply (view_nodup x RX); auto. lia. }
    assert (NT : NoDup (ids T)) by exact (ND d T R HT HV).
    rewrite (remove_prune c' (at_child c _ T)), (remove_prune c T NT) in W2 by (eapply (ND d1 _ R1 W1); now rewrite at_child_vid).
    rewrite (remove_prune c (at_child c' _ T)), (remove_prune c' T NT) in W4 by (eapply (ND d3 _ R3 W3); now rewrite at_child_vid).
    rewrite prune_prune in W2. eapply look_intro; eauto. now rewrite !prune_vid.
  Qed.

  Lemma law_set_text bl p s d1 d2 d3 : node_id d p ->
    run bl (RemoveChildren p) d = Ok d1 -> run bl (AppendText p s) d1 = Ok d2 ->
    run bl (SetText p s) d = Ok d3 -> looks_same d2 d3.
  Proof.
    intros Np E1 E2 E3. destruct (root_view d R) as (T & HT & HV).
    assert (V1 : valid d bl (RemoveChildren p)) by (cbn; destruct Np; lia). assert (V3 : valid d bl (SetText p s)) by exact Np.
    assert (R1 : reachable d1) by (eapply reach_step; [exact R|exact V1|exact E1]).
    assert (Ln : length (nodes d1) = n).
    { destruct (u_children d R p) as (l & Hl & _). destruct (u_preorder d R p) as (m & PD & _ & _ & _); [destruct Np; lia|].
      inversion PD; subst. assert (cs = l) by (eapply (kids_fun d R); eauto). subst cs.
      assert (PM : preorders d l m) by assumption.
      destruct (u_remove_children d R p l m V1 Hl PM) as (d0 & E0 & _ & _ & _ & _ & X). cbn [run] in E1. congruence. }
    assert (V2 : valid d1 bl (AppendText p s)) by (split; [apply Np|rewrite Ln; apply Np]).
    assert (R2 : reachable d2) by (eapply reach_step; [exact R1|exact V2|exact E2]).
    assert (R3 : reachable d3) by (eapply reach_step; [exact R|exact V3|exact E3]).
    pose proof (step_view d R T HT HV bl _ d1 V1 E1) as W1.
    pose proof (step_view d1 R1 _ W1 (eq_trans (step_vid _ _ _ _) HV) bl _ d2 V2 E2) as W2.
    pose proof (step_view d R T HT HV bl _ d3 V3 E3) as W3. rewrite Ln in W2.
    cbn [step] in W2, W3. rewrite at_node_twice in W2 by (apply with_kids_vid).
    rewrite (at_node_ext p _ (with_kids (fun _ => [V n (text_label s) []]))) in W2.
    - eapply look_intro; eauto. now rewrite at_node_vid' by (apply with_kids_vid).
    - intros [i l ks]. reflexivity.
  Qed.

  Lemma strip_at_node p f f' : (forall v, strip (f v) = strip (f' v)) -> forall T, strip (at_node p f T) = strip (at_node p f' T).
  Proof.
    intros H. induction T as [i l ks IH] using vtree_induct. cbn [at_node]. destruct (i =? p); [apply H|].
    cbn [strip]. f_equal. rewrite !map_map. apply map_ext_in. intros k Hk. rewrite Forall_forall in IH. auto.
  Qed.
  Lemma law_text_last bl p s s' d1 d2 d3 v2 v3 : node_id d p ->
    run bl (SetText p s) d = Ok d1 -> run bl (SetText p s') d1 = Ok d2 -> run bl (SetText p s') d = Ok d3 ->
    view d2 v2 -> vid v2 = 1 -> view d3 v3 -> vid v3 = 1 -> strip v2 = strip v3.
  Proof.
    intros Np E1 E2 E3 H2 I2 H3 I3. destruct (root_view d R) as (T & HT & HV).
    assert (V1 : valid d bl (SetText p s)) by exact Np. assert (V3 : valid d bl (SetText p s')) by exact Np.
    assert (R1 : reachable d1) by (eapply reach_step; [exact R|exact V1|exact E1]).
    assert (Ln : n <= length (nodes d1)).
    { assert (LT : later d d1) by (eapply later_step; [exact V1|exact E1|constructor]).
      destruct (later_grows d d1 LT) as (_ & X & _). exact X. }
    assert (V2 : valid d1 bl (SetText p s')) by (split; [apply Np|destruct Np; lia]).
    assert (R2 : reachable d2) by (eapply reach_step; [exact R1|exact V2|exact E2]).
    assert (R3 : reachable d3) by (eapply reach_step; [exact R|exact V3|exact E3]).
    pose proof (step_view d R T HT HV bl _ d1 V1 E1) as W1.
    pose proof (step_view d1 R1 _ W1 (eq_trans (step_vid _ _ _ _) HV) bl _ d2 V2 E2) as W2.
    pose proof (step_view d R T HT HV bl _ d3 V3 E3) as W3.
    rewrite (view_unique d2 R2 v2 _ H2 W2) by (rewrite !step_vid; congruence).
    rewrite (view_unique d3 R3 v3 _ H3 W3) by (rewrite !step_vid; congruence).
    cbn [step]. rewrite at_node_twice by (apply with_kids_vid). apply strip_at_node. intros [i l ks]. reflexivity.
  Qed.

  (** Equal looks stay equal. *)
  Lemma law_congruence d' bl o d1 d1' : reachable d' -> looks_same d d' -> length (nodes d') = n ->
    valid d bl o -> valid d' bl o -> run bl o d = Ok d1 -> run bl o d' = Ok d1' -> looks_same d1 d1'.
  Proof.
    intros R' L Ln V1 V2 E1 E2. destruct (root_view d R) as (T & HT & HV). pose proof (proj1 (L T HV) HT) as HT'.
    pose proof (step_view d R T HT HV bl _ d1 V1 E1) as W1.
    pose proof (step_view d' R' T HT' HV bl _ d1' V2 E2) as W2. rewrite Ln in W2.
    eapply look_intro; [eapply reach_step; [exact R| |]|eapply reach_step; [exact R'| |]| | |]; eauto. now rewrite step_vid.
  Qed.

  (** What the read API tells about two such DOMs. *)
  Lemma looks_reads d' : reachable d' -> looks_same d d' ->
    exists l, preorder d 1 l /\ preorder d' 1 l /\
      (exists m, dom_walk d 1 m /\ dom_walk d' 1 m /\ l = 1 :: m) /\
      forall x, In x l -> same_content d d' x /\ (forall cs, children d x cs <-> children d' x cs).
  Proof.
    intros R' L. destruct (root_view d R) as (T & HT & HV). pose proof (proj1 (L T HV) HT) as HT'.
    exists (ids T). pose proof (view_preorder d T HT) as P. pose proof (view_preorder d' T HT') as P'. rewrite HV in P, P'.
    split; [exact P|]. split; [exact P'|]. split.
    - destruct T as [i lb ks]. cbn [vid] in HV. subst i. cbn [ids] in *. exists (flat_map ids ks).
      split; [now apply (u_traverse_dom d R)|]. split; [now apply (u_traverse_dom d' R')|reflexivity].
    - intros x Hx. destruct (ids_sub x T Hx) as (t & S & E).
      pose proof (sub_view _ _ _ S HT) as Vt. pose proof (sub_view _ _ _ S HT') as Vt'. destruct t as [i lb ks].
      cbn [vid] in E. subst i. apply view_inv in Vt, Vt'. destruct Vt as (A & B & _). destruct Vt' as (A' & B' & _).
      split; [unfold same_content; congruence|]. intros cs. split; intros H.
      + rewrite (kids_fun d R _ _ _ H B). exact B'.
      + rewrite (kids_fun d' R' _ _ _ H B'). exact B.
  Qed.
End Laws.

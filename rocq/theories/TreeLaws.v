(** * Laws of the tree machine (C85). *)
From Coq Require Import List NArith Arith Bool Lia.
From Verif Require Import Base TrieModel DomModel ParserModel EditModel ReadModel DomSpec ApiSpec GrammarSpec ReaderSpec
  TreeSpec Lemmas TreeProofs TreeStep TreeOps TreeNumber TreeHtml TreeReplace TreeUser RegProofs AttrProofs
  ApiProofs EditUser ReadUser.
Import ListNotations.
Local Open Scope nat_scope.

(** ** Attribute edits and everything else *)
Section Attr.
  Context (q : nat) (g : vtree -> vtree) (r : label -> label).
  Context (Hg : forall i l ks, g (V i l ks) = V i (r l) ks).
  Context (Hr : forall l, l_text (r l) = l_text l).
  Context (Hs : forall s i l ks, with_text s (V i (r l) ks) = g (with_text s (V i l ks))).
  Notation G := (at_node q g).

  Lemma G_vid v : vid (G v) = vid v.
  Proof. destruct v as [i l ks]. cbn [at_node]. destruct (i =? q); [rewrite Hg|]; reflexivity. Qed.
  Lemma G_text v : vtext (G v) = vtext v.
  Proof.
    destruct v as [i l ks]. cbn [at_node]. destruct (i =? q); [rewrite Hg|]; [|reflexivity].
    unfold vtext. cbn [vlabel]. apply Hr.
  Qed.
  Lemma G_with_text s v : G (with_text s v) = with_text s (G v).
  Proof.
    destruct v as [i l ks]. cbn [with_text at_node]. destruct (i =? q); [|reflexivity].
    rewrite (Hg i l ks), Hs. reflexivity.
  Qed.
  Lemma G_last_text ks : last_text (map G ks) = last_text ks.
  Proof.
    induction ks as [|k ks IH]; [reflexivity|]. destruct ks as [|k' ks]; [apply G_text|].
    exact IH.
  Qed.
  Lemma G_first_text ks : first_text (map G ks) = first_text ks.
  Proof. destruct ks; [reflexivity|]. apply G_text. Qed.
  Lemma G_retext_last s ks : retext_last s (map G ks) = map G (retext_last s ks).
  Proof.
    induction ks as [|k ks IH]; [reflexivity|]. destruct ks as [|k' ks].
    - cbn [map retext_last]. now rewrite G_with_text.
    - change (G k :: retext_last s (map G (k' :: ks)) = G k :: map G (retext_last s (k' :: ks))). now rewrite IH.
  Qed.
  Lemma G_retext_first s ks : retext_first s (map G ks) = map G (retext_first s ks).
  Proof. destruct ks; [reflexivity|]. cbn [map retext_first]. now rewrite G_with_text. Qed.
  Lemma G_put_after ks new : put_after (map G ks) (map G new) = map G (put_after ks new).
  Proof.
    unfold put_after. rewrite G_last_text, G_first_text. destruct (last_text ks); [destruct (first_text new)|];
      rewrite map_app, ?G_retext_last, ?map_tl; reflexivity.
  Qed.
  Lemma G_put_before new ks : put_before (map G new) (map G ks) = map G (put_before new ks).
  Proof.
    unfold put_before. rewrite G_last_text, G_first_text. destruct (last_text new); [destruct (first_text ks)|];
      rewrite map_app, ?G_retext_first, ?map_removelast; reflexivity.
  Qed.
  Lemma G_put_between a new b : put_between (map G a) (map G new) (map G b) = map G (put_between a new b).
  Proof.
    unfold put_between. destruct new as [|x [|y new]].
    - rewrite <- G_put_after, <- G_put_before. reflexivity.
    - cbn [map]. rewrite G_last_text. destruct (last_text a); rewrite map_app.
      + f_equal. apply (G_put_after a [x]).
      + f_equal. apply (G_put_before [x] b).
    - rewrite <- G_put_after, <- G_put_before. reflexivity.
  Qed.
  Lemma G_out : forall v, ~ In q (ids v) -> G v = v.
  Proof.
    induction v as [i l ks IH] using vtree_induct. cbn [ids at_node]. intros N.
    destruct (Nat.eqb_spec i q) as [E|E]; [exfalso; apply N; now left|]. f_equal.
    rewrite <- (map_id ks) at 2. apply map_ext_in. intros k Hk. rewrite Forall_forall in IH. apply IH; auto.
    intros Hq. apply N. right. apply in_flat_map. eauto.
  Qed.
  Lemma G_outs vs : (forall v, In v vs -> ~ In q (ids v)) -> map G vs = vs.
  Proof. intros H. rewrite <- (map_id vs) at 2. apply map_ext_in. intros v Hv. apply G_out. auto. Qed.

  (** with an edit of the children of a node *)
  Lemma swap_kids p F : (forall ks, F (map G ks) = map G (F ks)) ->
    forall T, G (at_node p (with_kids F) T) = at_node p (with_kids F) (G T).
  Proof.
    intros HF. induction T as [i l ks IH] using vtree_induct. cbn [at_node].
    destruct (Nat.eqb_spec i p) as [Ep|Ep]; destruct (Nat.eqb_spec i q) as [Eq|Eq].
    - rewrite Hg. cbn [with_kids at_node]. subst. rewrite !Nat.eqb_refl. rewrite Hg. reflexivity.
    - cbn [with_kids at_node]. subst i. rewrite Nat.eqb_refl. destruct (Nat.eqb_spec p q); [congruence|].
      cbn [with_kids]. now rewrite HF.
    - rewrite Hg. cbn [at_node]. subst i. rewrite Nat.eqb_refl. destruct (Nat.eqb_spec q p); [congruence|].
      now rewrite Hg.
    - cbn [at_node]. destruct (Nat.eqb_spec i p); [congruence|]. destruct (Nat.eqb_spec i q); [congruence|].
      f_equal. rewrite !map_map. apply map_ext_in. intros k Hk. rewrite Forall_forall in IH. auto.
  Qed.
  (** with an attribute edit elsewhere *)
  Lemma swap_attr p g' r' : (forall i l ks, g' (V i l ks) = V i (r' l) ks) -> p <> q ->
    forall T, G (at_node p g' T) = at_node p g' (G T).
  Proof.
    intros Hg' N. induction T as [i l ks IH] using vtree_induct. cbn [at_node].
    destruct (Nat.eqb_spec i p) as [Ep|Ep]; destruct (Nat.eqb_spec i q) as [Eq|Eq]; [congruence| | |].
    - rewrite !Hg'. cbn [at_node]. subst i. rewrite Nat.eqb_refl. destruct (Nat.eqb_spec p q); [congruence|].
      now rewrite Hg'.
    - rewrite Hg. cbn [at_node]. subst i. rewrite Nat.eqb_refl. destruct (Nat.eqb_spec q p); [congruence|].
      now rewrite Hg.
    - cbn [at_node]. destruct (Nat.eqb_spec i p); [congruence|]. destruct (Nat.eqb_spec i q); [congruence|].
      f_equal. rewrite !map_map. apply map_ext_in. intros k Hk. rewrite Forall_forall in IH. auto.
  Qed.
  (** with an edit of another part of the label *)
  Lemma swap_label p g' r' : (forall i l ks, g' (V i l ks) = V i (r' l) ks) -> (forall l, r (r' l) = r' (r l)) ->
    forall T, G (at_node p g' T) = at_node p g' (G T).
  Proof.
    intros Hg' C. destruct (Nat.eq_dec p q) as [->|N]; [|eapply swap_attr; eauto].
    induction T as [i l ks IH] using vtree_induct. cbn [at_node].
    destruct (Nat.eqb_spec i q) as [Eq|Eq].
    - rewrite Hg', Hg. cbn [at_node]. subst i. rewrite Nat.eqb_refl. rewrite Hg', Hg, C. reflexivity.
    - cbn [at_node]. destruct (Nat.eqb_spec i q); [congruence|].
      f_equal. rewrite !map_map. apply map_ext_in. intros k Hk. rewrite Forall_forall in IH. auto.
  Qed.
  Lemma G_split c : forall ks, split_at c (map G ks) =
    match split_at c ks with Some (a, b) => Some (map G a, map G b) | None => None end.
  Proof.
    induction ks as [|k ks IH]; [reflexivity|]. cbn [map split_at]. rewrite G_vid, IH.
    destruct (vid k =? c); [reflexivity|]. now destruct (split_at c ks) as [[a b]|].
  Qed.
  (** with an edit next to a child *)
  Lemma swap_child c F : (forall a b, F (map G a) (map G b) = map G (F a b)) ->
    forall T, G (at_child c F T) = at_child c F (G T).
  Proof.
    intros HF. induction T as [i l ks IH] using vtree_induct. cbn [at_child at_node].
    destruct (Nat.eqb_spec i q) as [Eq|Eq].
    - rewrite Hg. cbn [at_child]. subst i. destruct (split_at c ks) as [[a b]|]; cbn [at_node]; rewrite Nat.eqb_refl, Hg; reflexivity.
    - cbn [at_child]. rewrite G_split. destruct (split_at c ks) as [[a b]|]; cbn [at_node];
        (destruct (Nat.eqb_spec i q); [congruence|]).
      + now rewrite HF.
      + f_equal. rewrite !map_map. apply map_ext_in. intros k Hk. rewrite Forall_forall in IH. auto.
  Qed.
End Attr.

(** What an attribute call does to the label. *)
Definition relab (o : op) (l : label) : label :=
  match o with
  | AddBool _ b => mkLabel (l_kind l) (l_tag l) (l_text l) (l_bools l ++ [b]) (l_props l)
  | AddProp _ k w => mkLabel (l_kind l) (l_tag l) (l_text l) (l_bools l) (l_props l ++ [(k, w)])
  | RemoveBool _ b => mkLabel (l_kind l) (l_tag l) (l_text l) (remove_first (beq b) (l_bools l)) (l_props l)
  | RemoveProp _ k => mkLabel (l_kind l) (l_tag l) (l_text l) (l_bools l) (remove_first (fun kv => beq k (fst kv)) (l_props l))
  | SetProp _ k w => mkLabel (l_kind l) (l_tag l) (l_text l) (l_bools l) (set_first k w (l_props l))
  | _ => l
  end.
Definition relabel (o : op) (v : vtree) : vtree := match v with V i l ks => V i (relab o l) ks end.

Lemma at_node_ext p f f' : (forall v, f v = f' v) -> forall T, at_node p f T = at_node p f' T.
Proof.
  intros H. induction T as [i l ks IH] using vtree_induct. cbn [at_node]. destruct (i =? p); [apply H|].
  f_equal. apply map_ext_in. intros k Hk. rewrite Forall_forall in IH. auto.
Qed.
Lemma attr_step bl n a q T : attr_of a = Some q -> step bl n a T = at_node q (relabel a) T.
Proof.
  intros H. destruct a; try discriminate; injection H as ->; cbn [step]; apply at_node_ext; intros [i l ks]; reflexivity.
Qed.

Lemma ids_numbers q : forall ts n, (forall t, In t ts -> forall m, In q (ids (number m t)) -> m <= q) ->
  In q (flat_map ids (numbers n ts)) -> n <= q.
Proof.
  induction ts as [|t ts IH]; intros n H; cbn [numbers flat_map]; [intros []|]. rewrite in_app_iff. intros [Hq|Hq].
  - eapply H; eauto. now left.
  - enough (n + tsize t <= q) by lia. apply IH; auto. intros; apply (H t0); auto. now right.
Qed.
Lemma ids_number q : forall t n, In q (ids (number n t)) -> n <= q.
Proof.
  induction t as [s|tag bs ps ts IH] using GrammarLoop.tree_induct; intros n.
  - cbn. intuition lia.
  - rewrite number_elem. cbn [ids]. intros [<-|H]; [lia|]. enough (S n <= q) by lia.
    eapply ids_numbers; [|exact H]. intros t Ht m. rewrite Forall_forall in IH. now apply IH.
Qed.
Lemma html_ids bl n h new q v : html bl n h = Some new -> In v new -> In q (ids v) -> n <= q.
Proof.
  unfold html. destruct (fragment_of bl h) as [ts us| |]; try discriminate. intros E Hv Hq. injection E as <-.
  eapply (ids_numbers q ts n).
  - intros t _ m. apply ids_number.
  - apply in_flat_map. eauto.
Qed.

(** An attribute edit of node [q] commutes with every other call. *)
Lemma step_swap bl bl' n a o q T : attr_of a = Some q -> attr_of o <> Some q -> q < n ->
  step bl' n o (step bl n a T) = step bl n a (step bl' n o T).
Proof.
  intros Ha Ho Hq. rewrite !(attr_step bl n a q _ Ha).
  assert (R1 : forall i l ks, relabel a (V i l ks) = V i (relab a l) ks) by reflexivity.
  assert (R2 : forall l, l_text (relab a l) = l_text l) by (destruct a; reflexivity).
  assert (R3 : forall s i l ks, with_text s (V i (relab a l) ks) = relabel a (with_text s (V i l ks))) by (destruct a; reflexivity).
  assert (RN : forall l, map (at_node q (relabel a)) [V n l []] = [V n l []]).
  { intros l. cbn [map at_node]. destruct (Nat.eqb_spec n q); [lia|reflexivity]. }
  assert (RH : forall h new, html bl' n h = Some new -> map (at_node q (relabel a)) new = new).
  { intros h new E. eapply G_outs; eauto. intros v Hv Hi. pose proof (html_ids _ _ _ _ _ _ E Hv Hi). lia. }
  destruct (attr_of o) as [p|] eqn:Eo.
  - rewrite !(attr_step bl' n o p _ Eo). symmetry. eapply swap_attr; eauto; try (intros; reflexivity); congruence.
  - set (G := at_node q (relabel a)) in *.
    assert (N1 : forall ks new, map G new = new -> put_after (map G ks) new = map G (put_after ks new)).
    { intros ks new E. rewrite <- E at 1. eapply G_put_after; eauto. }
    assert (N2 : forall ks new, map G new = new -> put_before new (map G ks) = map G (put_before new ks)).
    { intros ks new E. rewrite <- E at 1. eapply G_put_before; eauto. }
    assert (N3 : forall x y new, map G new = new -> put_between (map G x) new (map G y) = map G (put_between x new y)).
    { intros x y new E. rewrite <- E at 1. eapply G_put_between; eauto. }
    assert (RV : forall l, G (V n l []) = V n l []).
    { intros l. specialize (RN l). cbn [map] in RN. congruence. }
    destruct o; try discriminate; cbn [step];
      repeat match goal with |- context [html bl' n ?h] => destruct (html bl' n h) eqn:EH; [|reflexivity] end;
      symmetry; try (first [eapply swap_kids | eapply swap_child]; eauto; fold G; intros;
        rewrite ?map_app, ?map_cons, ?RV, ?RN; (try reflexivity); auto; fail).
    + eapply (swap_label q (relabel a) (relab a) R1 n0 (more_text_at s app) (fun l => match l_text l with
        | Some old => mkLabel (l_kind l) (l_tag l) (Some (if app then old ++ [cSP] ++ s else s ++ [cSP] ++ old)) (l_bools l) (l_props l)
        | None => l end)).
      * intros i l ks. unfold more_text_at. cbn [vlabel]. destruct (l_text l); reflexivity.
      * intros l. rewrite R2. destruct (l_text l); [|reflexivity]. destruct a; reflexivity.
    + eapply (swap_label q (relabel a) (relab a) R1 n0 (with_tag tag)
        (fun l => mkLabel (l_kind l) (Some tag) (l_text l) (l_bools l) (l_props l))).
      * reflexivity.
      * intros l. destruct a; reflexivity.
Qed.

(** ** Pruning *)
Definition keep (c : nat) (ks : list vtree) : list vtree := filter (fun k => negb (vid k =? c)) ks.
Fixpoint prune (c : nat) (v : vtree) : vtree := match v with V i l ks => V i l (keep c (map (prune c) ks)) end.
Lemma prune_vid c v : vid (prune c v) = vid v.
Proof. destruct v; reflexivity. Qed.
Lemma keep_map c c' ks : keep c (map (prune c') ks) = map (prune c') (keep c ks).
Proof.
  induction ks as [|k ks IH]; [reflexivity|]. cbn [map keep filter]. rewrite prune_vid.
  destruct (vid k =? c); cbn [negb]; fold (keep c (map (prune c') ks)); fold (keep c ks); rewrite IH; reflexivity.
Qed.
Lemma prune_eq c i l ks : prune c (V i l ks) = V i l (map (prune c) (keep c ks)).
Proof. cbn [prune]. now rewrite keep_map. Qed.
Lemma keep_out c ks : ~ In c (map vid ks) -> keep c ks = ks.
Proof.
  induction ks as [|k ks IH]; [reflexivity|]. cbn [map keep filter]. intros N.
  destruct (Nat.eqb_spec (vid k) c); [exfalso; apply N; now left|]. cbn [negb]. f_equal. apply IH. intros H. apply N. now right.
Qed.
Lemma prune_out c : forall v, ~ In c (ids v) -> prune c v = v.
Proof.
  induction v as [i l ks IH] using vtree_induct. intros N. rewrite prune_eq. f_equal.
  assert (NK : forall k, In k ks -> ~ In c (ids k)).
  { intros k Hk Hc. apply N. right. apply in_flat_map. eauto. }
  rewrite keep_out.
  - rewrite <- (map_id ks) at 2. apply map_ext_in. intros k Hk. rewrite Forall_forall in IH. auto.
  - intros Hc. apply in_map_iff in Hc. destruct Hc as (k & <- & Hk). apply (NK k Hk). apply in_ids_vid.
Qed.
Lemma prune_outs c ks : ~ In c (flat_map ids ks) -> map (prune c) (keep c ks) = ks.
Proof.
  intros N. rewrite keep_out.
  - rewrite <- (map_id ks) at 2. apply map_ext_in. intros k Hk. apply prune_out. intros H. apply N. apply in_flat_map. eauto.
  - intros Hc. apply N. apply in_map_iff in Hc. destruct Hc as (k & <- & Hk). now apply vid_in.
Qed.

Lemma remove_prune c : forall v, NoDup (ids v) -> at_child c (fun a b => a ++ b) v = prune c v.
Proof.
  induction v as [i l ks IH] using vtree_induct. cbn [ids]. intros ND. apply NoDup_cons_iff in ND. destruct ND as (_ & ND).
  rewrite prune_eq. cbn [at_child]. destruct (split_at c ks) as [[a b]|] eqn:Es; f_equal.
  - destruct (split_at_some _ _ _ _ Es) as (k & -> & Ek).
    assert (Na : ~ In c (flat_map ids a) /\ ~ In c (flat_map ids b)).
    { split; intros H; eapply (nodup_mid ids a k b); eauto; rewrite <- Ek; apply in_ids_vid. }
    destruct Na as (Na & Nb).
    unfold keep. rewrite filter_app. cbn [filter]. rewrite Ek, Nat.eqb_refl. cbn [negb]. rewrite map_app.
    fold (keep c a). fold (keep c b). now rewrite !prune_outs.
  - pose proof (split_at_none _ _ Es) as N. rewrite keep_out by exact N. apply map_ext_in. intros k Hk.
    rewrite Forall_forall in IH. apply IH; auto. eapply flat_nodup; eauto.
Qed.

Lemma keep_keep c c' ks : keep c (keep c' ks) = keep c' (keep c ks).
Proof.
  induction ks as [|k ks IH]; [reflexivity|]. cbn [keep filter].
  destruct (vid k =? c) eqn:E1; destruct (vid k =? c') eqn:E2; cbn [negb filter]; rewrite ?E1, ?E2; cbn [negb]; fold (keep c' ks); fold (keep c ks);
    fold (keep c (keep c' ks)); fold (keep c' (keep c ks)); rewrite ?IH; reflexivity.
Qed.
Lemma prune_prune c c' : forall v, prune c (prune c' v) = prune c' (prune c v).
Proof.
  induction v as [i l ks IH] using vtree_induct. rewrite !prune_eq. f_equal. rewrite !keep_map, !map_map, keep_keep.
  apply map_ext_in. intros k Hk. rewrite Forall_forall in IH. apply IH. unfold keep in Hk.
  repeat (apply filter_In in Hk; destruct Hk as (Hk & _)). exact Hk.
Qed.

(** A new leaf among the children is pruned again. *)
Lemma prune_new p n F : (forall ks, ~ In n (flat_map ids ks) -> keep n (F ks) = ks) ->
  forall v, ~ In n (ids v) -> prune n (at_node p (with_kids F) v) = v.
Proof.
  intros HF. induction v as [i l ks IH] using vtree_induct. cbn [ids]. intros N.
  assert (N' : ~ In n (flat_map ids ks)) by (intros H; apply N; now right).
  cbn [at_node]. destruct (i =? p).
  - cbn [with_kids]. rewrite prune_eq, HF by auto. f_equal.
    rewrite <- (keep_out n ks) at 1; [now apply prune_outs|].
    intros Hc. apply N'. apply in_map_iff in Hc. destruct Hc as (k & <- & Hk). now apply vid_in.
  - rewrite prune_eq. f_equal. rewrite keep_out.
    + rewrite map_map. rewrite <- (map_id ks) at 2. apply map_ext_in. intros k Hk. rewrite Forall_forall in IH.
      apply IH; auto. intros H. apply N'. apply in_flat_map. eauto.
    + rewrite map_map. intros Hc. apply N'. apply in_map_iff in Hc. destruct Hc as (k & E & Hk).
      rewrite at_node_vid' in E by (intros [? ? ?]; reflexivity). subst n. now apply vid_in.
Qed.

(** ** Twice at the same node *)
Lemma at_node_twice p f f' : (forall v, vid (f v) = vid v) -> forall T, at_node p f' (at_node p f T) = at_node p (fun v => f' (f v)) T.
Proof.
  intros H. induction T as [i l ks IH] using vtree_induct. cbn [at_node]. destruct (Nat.eqb_spec i p) as [E|E].
  - pose proof (H (V i l ks)) as Hv. destruct (f (V i l ks)) as [j m js]. cbn [vid] in Hv. subst j. cbn [at_node].
    destruct (Nat.eqb_spec i p); [reflexivity|congruence].
  - cbn [at_node]. destruct (Nat.eqb_spec i p); [congruence|]. f_equal. rewrite map_map. apply map_ext_in.
    intros k Hk. rewrite Forall_forall in IH. auto.
Qed.
Lemma at_node_id p f : forall T, (forall t, sub t T -> vid t = p -> f t = t) -> at_node p f T = T.
Proof.
  induction T as [i l ks IH] using vtree_induct. intros H. cbn [at_node]. destruct (Nat.eqb_spec i p) as [E|E].
  - apply H; [constructor|exact E].
  - f_equal. rewrite <- (map_id ks) at 2. apply map_ext_in. intros k Hk. rewrite Forall_forall in IH. apply IH; auto.
    intros t S. apply H. econstructor; eauto.
Qed.
Lemma set_first_twice k w w' : forall l, set_first k w' (set_first k w l) = set_first k w' l.
Proof.
  induction l as [|[k' v'] l IH]; [reflexivity|]. simpl. destruct (beq k k') eqn:E; simpl; rewrite E; congruence.
Qed.

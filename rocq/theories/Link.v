(** * Linking one fresh node (parser, setTextContent); removing subtrees. *)
From Coq Require Import List NArith Arith Bool Lia.
From Verif Require Import Base TrieModel DomModel ParserModel EditModel DomSpec
  Lemmas Tables Inv Surgery Attach.
Import ListNotations.
Local Open Scope nat_scope.

Section Link.
  Context (d : dom) (k : kids) (I : Inv d k) (x : nat).
  Context (Hx : 2 <= x < length (nodes d)).
  Context (Hfree : forall q, ~ In x (k q)).
  Context (Hpc : forall p, ~ In (p, x) (pchilds d)).
  Let W := inv_kw _ _ I.

  Lemma link_kw q : match q with Par p => 1 <= p < x | Flo f => f <= x end ->
    kw (length (nodes d)) (upk k q (k q ++ [x])).
  Proof.
    intros Hq. apply kw_add; auto.
    - apply nodup_app; [apply (kw_nodup _ _ W)| |].
      + constructor; [simpl; tauto|constructor].
      + intros y Hy [<-|[]]. exact (Hfree q Hy).
    - intros c Hc. apply in_app_or in Hc as [Hc|[<-|[]]]; auto.
  Qed.

  Lemma link_Rn q a b :
    Rn (upk k q (k q ++ [x])) a b <-> Rn k a b \/ (last_error (k q) = Some a /\ b = x).
  Proof.
    rewrite Rn_upk, (Rn_split k q a b), adj_app. simpl.
    split; intros H; decompose [or and] H; subst; auto 10; try congruence;
      try (right; split; congruence); try tauto.
  Qed.

  Lemma link_pc p : 1 <= p < x ->
    pc_ok (length (nodes d)) (pchilds d ++ [(p, x)]) (upk k (Par p) (k (Par p) ++ [x])).
  Proof.
    intros Hp. destruct (inv_pchild _ _ I) as [P1 P2 P3 P4]. constructor.
    - intros a b H. apply in_or_app. unfold Rp in H.
      destruct (Nat.eq_dec a p) as [->|Hne].
      + rewrite upk_eq in H. apply in_app_or in H as [H|[<-|[]]]; simpl; auto.
      + rewrite upk_neq in H by congruence. auto.
    - intros a b H. apply in_app_or in H as [H|[H|[]]]; auto.
      injection H as <- <-. lia.
    - intros a a' b H H'. apply in_app_or in H. apply in_app_or in H'.
      destruct H as [H|[H|[]]], H' as [H'|[H'|[]]].
      + eauto.
      + injection H' as <- <-. destruct (Hpc _ H).
      + injection H as <- <-. destruct (Hpc _ H').
      + congruence.
    - intros f a c H. rewrite upk_neq in H by congruence. intros H'.
      apply in_app_or in H' as [H'|[H'|[]]].
      + eapply P4; eauto.
      + injection H' as <- <-. eapply Hfree; eauto.
  Qed.

  (** First child of an element without children. *)
  Lemma link_first p :
    1 <= p < x -> k (Par p) = [] ->
    Inv (push_first (push_pchild d (p, x)) (p, x)) (upk k (Par p) [x]).
  Proof.
    intros Hp He. pose proof (link_kw (Par p) Hp) as HW.
    pose proof (link_pc p Hp) as HP. pose proof (link_Rn (Par p)) as HR.
    rewrite He in *. simpl app in *.
    constructor; simpl; try apply I; auto.
    - eapply tab_ext; [apply (inv_next _ _ I)|]. intros a b. rewrite HR.
      unfold last_error. simpl. intuition discriminate.
    - eapply tab_ext.
      + eapply (tab_push _ _ p x); [apply (inv_first _ _ I)|lia|lia|].
        unfold Rf. rewrite He. discriminate.
      + intros a b. unfold Rf. destruct (Nat.eq_dec a p) as [->|Hne].
        * rewrite upk_eq, He. simpl. intuition congruence.
        * rewrite upk_neq by congruence. intuition congruence.
  Qed.

  (** Next sibling below a parent. *)
  Lemma link_next_par p prev :
    1 <= p < x -> last_error (k (Par p)) = Some prev ->
    Inv (push_next (push_pchild d (p, x)) (prev, x)) (upk k (Par p) (k (Par p) ++ [x])).
  Proof.
    intros Hp Hl. pose proof (link_kw (Par p) Hp) as HW.
    pose proof (link_pc p Hp) as HP. pose proof (link_Rn (Par p)) as HR.
    apply last_error_in in Hl as Hin.
    constructor; simpl; try apply I; auto.
    - eapply tab_ext.
      + eapply (tab_push _ _ prev x); [apply (inv_next _ _ I)| |lia|].
        * eapply (k_nz I); eauto.
        * intros [q H]. apply adj_in in H. eapply Hfree, H.
      + intros a b. rewrite HR, Hl. intuition congruence.
    - eapply tab_ext; [apply (inv_first _ _ I)|]. intros a b. unfold Rf.
      destruct (Nat.eq_dec a p) as [->|Hne].
      + rewrite upk_eq. destruct (k (Par p)); [discriminate|]. simpl. tauto.
      + rewrite upk_neq by congruence. tauto.
  Qed.

  (** Next sibling in a floating chain. *)
  Lemma link_next_flo f prev :
    f <= x -> last_error (k (Flo f)) = Some prev ->
    Inv (push_next d (prev, x)) (upk k (Flo f) (k (Flo f) ++ [x])).
  Proof.
    intros Hf Hl. pose proof (link_kw (Flo f) Hf) as HW.
    pose proof (link_Rn (Flo f)) as HR.
    apply last_error_in in Hl as Hin.
    constructor; simpl; try apply I; auto.
    - eapply tab_ext.
      + eapply (tab_push _ _ prev x); [apply (inv_next _ _ I)| |lia|].
        * eapply (k_nz I); eauto.
        * intros [q H]. apply adj_in in H. eapply Hfree, H.
      + intros a b. rewrite HR, Hl. intuition congruence.
    - destruct (inv_pchild _ _ I) as [P1 P2 P3 P4]. constructor; auto.
      intros f' a c H. destruct (Nat.eq_dec f' f) as [->|Hne].
      + rewrite upk_eq in H. apply in_app_or in H as [H|[<-|[]]]; eauto.
      + rewrite upk_neq in H by congruence. eauto.
  Qed.
End Link.

(** ** Subtrees *)
Fixpoint prel (fuel : nat) (k : kids) (c : nat) : list nat :=
  c :: match fuel with
       | O => []
       | S f => flat_map (prel f k) (k (Par c))
       end.

(** The pre-order listing of the subtree at [c] ([n] bounds all ids). *)
Definition pre (n : nat) (k : kids) (c : nat) : list nat := prel (n - c) k c.
Definition pres (n : nat) (k : kids) (l : list nat) : list nat := flat_map (pre n k) l.

Lemma flat_map_ext_in {A B} (f g : A -> list B) l :
  (forall x, In x l -> f x = g x) -> flat_map f l = flat_map g l.
Proof.
  induction l as [|a l IH]; simpl; intros H; auto.
  rewrite (H a), IH; auto.
Qed.

Lemma prel_fuel n k : kw n k -> forall f c, n - c <= f -> prel f k c = pre n k c.
Proof.
  intros W. unfold pre.
  assert (G : forall m f c, n - c <= m -> n - c <= f -> prel f k c = prel m k c).
  { induction m as [|m IH]; intros f c Hm Hf.
    - assert (E : k (Par c) = []).
      { destruct (k (Par c)) as [|x l] eqn:E; auto. exfalso.
        assert (Hi : In x (k (Par c))) by (rewrite E; simpl; auto).
        pose proof (kw_bound _ _ W _ _ Hi). pose proof (kw_order _ _ W _ _ Hi). lia. }
      destruct f; simpl; rewrite ?E; reflexivity.
    - destruct f as [|f].
      + assert (E : k (Par c) = []).
        { destruct (k (Par c)) as [|x l] eqn:E; auto. exfalso.
          assert (Hi : In x (k (Par c))) by (rewrite E; simpl; auto).
          pose proof (kw_bound _ _ W _ _ Hi). pose proof (kw_order _ _ W _ _ Hi). lia. }
        simpl. rewrite E. reflexivity.
      + simpl. f_equal. apply flat_map_ext_in. intros x Hi.
        pose proof (kw_bound _ _ W _ _ Hi). pose proof (kw_order _ _ W _ _ Hi).
        apply IH; lia. }
  intros f c Hf. apply G; lia.
Qed.

Lemma pre_eq n k c : kw n k -> pre n k c = c :: pres n k (k (Par c)).
Proof.
  intros W. rewrite <- (prel_fuel n k W (S (n - c)) c) by lia.
  cbn [prel]. f_equal. apply flat_map_ext_in. intros x Hi.
  pose proof (kw_order _ _ W _ _ Hi). apply prel_fuel; auto. lia.
Qed.

(** Induction over subtrees. *)
Lemma kids_ind n k (P : nat -> Prop) :
  kw n k -> (forall c, (forall x, In x (k (Par c)) -> P x) -> P c) -> forall c, P c.
Proof.
  intros W H c. remember (n - c) as m eqn:Hm. revert c Hm.
  induction m as [m IH] using lt_wf_ind. intros c Hm. apply H. intros x Hi.
  pose proof (kw_bound _ _ W _ _ Hi). pose proof (kw_order _ _ W _ _ Hi).
  apply (IH (n - x)); auto. lia.
Qed.

Lemma pre_self n k c : kw n k -> In c (pre n k c).
Proof. intros W. rewrite pre_eq by auto. simpl; auto. Qed.

Lemma pres_in n k l x : In x (pres n k l) <-> exists c, In c l /\ In x (pre n k c).
Proof. apply in_flat_map. Qed.

(** Members of a subtree are >= its root, and = or below a child. *)
Lemma pre_ge n k c x : kw n k -> In x (pre n k c) -> c <= x.
Proof.
  intros W. revert x. pattern c. apply (kids_ind n k); auto. clear c.
  intros c IH x. rewrite pre_eq by auto. intros [->|H]; auto.
  apply pres_in in H as (y & Hy & H). apply IH in H; auto.
  pose proof (kw_order _ _ W _ _ Hy). lia.
Qed.

Lemma pre_closed n k c x y :
  kw n k -> In x (pre n k c) -> In y (k (Par x)) -> In y (pre n k c).
Proof.
  intros W. revert x y. pattern c. apply (kids_ind n k); auto. clear c.
  intros c IH x y. rewrite pre_eq by auto. intros [->|H] Hy.
  - right. apply pres_in. exists y. split; auto. now apply pre_self.
  - right. apply pres_in in H as (z & Hz & H). apply pres_in. exists z.
    split; auto. eapply IH; eauto.
Qed.

(** A proper member has its parent in the subtree. *)
Lemma pre_parent n k c x :
  kw n k -> In x (pre n k c) -> x = c \/ exists p, In x (k (Par p)) /\ In p (pre n k c).
Proof.
  intros W. revert x. pattern c. apply (kids_ind n k); auto. clear c.
  intros c IH x. rewrite pre_eq by auto. intros [->|H]; auto. right.
  apply pres_in in H as (y & Hy & H). destruct (IH y Hy x H) as [->|(p & Hp & Hp')].
  - exists c. split; auto. left; auto.
  - exists p. split; auto. right. apply pres_in. eauto.
Qed.

(** Subtrees of distinct siblings are disjoint. *)
Lemma pre_sibling n k p a b x :
  kw n k -> In a (k (Par p)) -> In b (k (Par p)) ->
  In x (pre n k a) -> In x (pre n k b) -> a = b.
Proof.
  intros W Ha Hb. remember x as x0 eqn:Hx0.
  (* climb from x: strong induction on x *)
  revert x Hx0. induction x0 as [x0 IH] using lt_wf_ind. intros x -> H1 H2.
  destruct (pre_parent n k a x W H1) as [->|(p1 & Hp1 & Hq1)].
  - destruct (pre_parent n k b a W H2) as [->|(p2 & Hp2 & Hq2)]; auto.
    exfalso. assert (Par p2 = Par p) by (eapply (kw_disj _ _ W); eauto).
    injection H as ->. apply pre_ge in Hq2; auto.
    pose proof (kw_order _ _ W _ _ Hb). lia.
  - destruct (pre_parent n k b x W H2) as [->|(p2 & Hp2 & Hq2)].
    + exfalso. assert (Par p1 = Par p) by (eapply (kw_disj _ _ W); eauto).
      injection H as ->. apply pre_ge in Hq1; auto.
      pose proof (kw_order _ _ W _ _ Ha). lia.
    + assert (Par p1 = Par p2) by (eapply (kw_disj _ _ W); eauto).
      injection H as <-. pose proof (kw_order _ _ W _ _ Hp1).
      eapply (IH p1); eauto. lia.
Qed.

Lemma pre_nodup n k c : kw n k -> NoDup (pre n k c).
Proof.
  intros W. pattern c. apply (kids_ind n k); auto. clear c. intros c IH.
  rewrite pre_eq by auto. constructor.
  - intros H. apply pres_in in H as (y & Hy & H). apply pre_ge in H; auto.
    pose proof (kw_order _ _ W _ _ Hy). lia.
  - assert (G : forall l, NoDup l -> (forall x, In x l -> In x (k (Par c))) ->
                NoDup (pres n k l)).
    { induction l as [|a l IHl]; simpl; intros Hn Hs; [constructor|].
      inversion Hn; subst. apply nodup_app.
      - apply IH. auto.
      - apply IHl; auto.
      - intros x Hx Hx'. apply pres_in in Hx' as (b & Hb & Hx').
        assert (a = b) by (eapply (pre_sibling n k c); eauto). subst. auto. }
    apply G; auto. apply (kw_nodup _ _ W).
Qed.

Lemma pre_length d k c :
  Inv d k -> length (pre (length (nodes d)) k c) <= S (length (pchilds d)).
Proof.
  intros I. pose proof (inv_kw _ _ I) as W. set (n := length (nodes d)) in *.
  pose proof (pre_nodup n k c W) as Hn.
  rewrite (pre_eq n k c W) in *. simpl. apply le_n_S.
  inversion Hn; subst. rewrite <- (map_length snd (pchilds d)).
  apply NoDup_incl_length; auto. intros x Hx.
  assert (Hx' : In x (pre n k c)) by (rewrite pre_eq; auto; right; auto).
  destruct (pre_parent n k c x W Hx') as [->|(p & Hp & _)]; [tauto|].
  apply in_map_iff. exists (p, x). split; auto.
  apply (pc_in _ _ _ (inv_pchild _ _ I)). exact Hp.
Qed.

(** ** Cutting a set of nodes out of all child lists *)
Definition mem (x : nat) (D : list nat) : bool := existsb (Nat.eqb x) D.
Lemma mem_in x D : mem x D = true <-> In x D.
Proof.
  unfold mem. rewrite existsb_exists. split.
  - intros (y & H & E). apply Nat.eqb_eq in E. now subst.
  - intros H. exists x. split; auto. apply Nat.eqb_refl.
Qed.
Lemma mem_not x D : mem x D = false <-> ~ In x D.
Proof. rewrite <- mem_in. destruct (mem x D); split; congruence. Qed.

Definition cut (D : list nat) (k : kids) : kids :=
  fun q => filter (fun x => negb (mem x D)) (k q).

Lemma cut_in D k q x : In x (cut D k q) <-> In x (k q) /\ ~ In x D.
Proof.
  unfold cut. rewrite filter_In, negb_true_iff, mem_not. tauto.
Qed.

Lemma filter_all {A} (f : A -> bool) l : (forall x, In x l -> f x = true) -> filter f l = l.
Proof.
  induction l as [|a l IH]; simpl; intros H; auto. rewrite (H a) by auto.
  f_equal. auto.
Qed.

Lemma cut_id D k q : (forall x, In x (k q) -> ~ In x D) -> cut D k q = k q.
Proof.
  intros H. unfold cut. apply filter_all. intros x Hx.
  apply negb_true_iff, mem_not. auto.
Qed.

Lemma cut_app D1 D2 k : kext (cut D2 (cut D1 k)) (cut (D1 ++ D2) k).
Proof.
  intros q. unfold cut. generalize (k q) as l.
  induction l as [|a l IH]; simpl; auto.
  unfold mem in *. rewrite existsb_app.
  destruct (existsb (Nat.eqb a) D1) eqn:E1; simpl; auto.
  destruct (existsb (Nat.eqb a) D2) eqn:E2; simpl; rewrite ?IH; auto.
Qed.

Lemma cut_nil k : kext (cut [] k) k.
Proof. intros q. apply cut_id. auto. Qed.

Lemma filter_ext_in' {A} (f g : A -> bool) l :
  (forall x, In x l -> f x = g x) -> filter f l = filter g l.
Proof.
  induction l as [|a l IH]; simpl; intros H; auto. rewrite (H a), IH; auto.
Qed.

Lemma cut_set D D' k : (forall x, In x D <-> In x D') -> kext (cut D k) (cut D' k).
Proof.
  intros H q. apply filter_ext_in'. intros x _. f_equal.
  destruct (mem x D) eqn:E; symmetry.
  - apply mem_in, H, mem_in. auto.
  - apply mem_not. rewrite <- H. now apply mem_not.
Qed.

Lemma cut_kw n D k : kw n k -> kw n (cut D k).
Proof.
  intros W. eapply kw_sub; eauto.
  - intros q. apply NoDup_filter, (kw_nodup _ _ W).
  - intros q c H. apply cut_in in H. tauto.
Qed.

Lemma pre_cut n D k c :
  kw n k -> (forall x, In x (pre n k c) -> x = c \/ ~ In x D) -> pre n (cut D k) c = pre n k c.
Proof.
  intros W. pattern c. apply (kids_ind n k); auto. clear c. intros c IH H.
  rewrite !pre_eq by (auto; now apply cut_kw). f_equal.
  assert (Hk : cut D k (Par c) = k (Par c)).
  { apply cut_id. intros x Hx Hd. destruct (H x) as [->|]; auto.
    - rewrite pre_eq by auto. right. apply pres_in. exists x. split; auto. now apply pre_self.
    - pose proof (kw_order _ _ W _ _ Hx). lia. }
  rewrite Hk. unfold pres. apply flat_map_ext_in. intros x Hx. apply IH; auto.
  intros y Hy. right. intros Hd. destruct (H y) as [->|]; auto.
  - rewrite pre_eq by auto. right. apply pres_in. eauto.
  - apply pre_ge in Hy; auto. pose proof (kw_order _ _ W _ _ Hx). lia.
Qed.

(** Node array after removing the nodes [D]. *)
Definition nodes_cut (D : list nat) (ns ns' : list node) : Prop :=
  length ns' = length ns /\
  forall i n, nth_error ns i = Some n ->
    nth_error ns' i = Some (if mem i D then removed_node i else n).

Lemma nodes_cut_nil ns : nodes_cut [] ns ns.
Proof. split; auto. Qed.

Lemma nodes_cut_app D1 D2 a b c :
  nodes_cut D1 a b -> nodes_cut D2 b c -> nodes_cut (D1 ++ D2) a c.
Proof.
  intros [L1 H1] [L2 H2]. split; [congruence|]. intros i n Hi.
  rewrite (H2 i _ (H1 i n Hi)). unfold mem. rewrite existsb_app.
  destruct (existsb (Nat.eqb i) D1), (existsb (Nat.eqb i) D2); reflexivity.
Qed.

Lemma nodes_cut_one ns c :
  nodes_cut [c] ns (upd ns c (removed_node c)).
Proof.
  split; [apply upd_length|]. intros i n Hi. rewrite upd_nth. simpl.
  rewrite orb_false_r. destruct (Nat.eqb_spec i c) as [->|]; auto.
  now rewrite Hi.
Qed.

(** A node is removable if it is in a chain, or has never been attached. *)
Definition removable (d : dom) (k : kids) (c : nat) : Prop :=
  1 <= c < length (nodes d) /\
  ((exists q, In c (k q)) \/
   ((forall q, ~ In c (k q)) /\ forall p, ~ In (p, c) (pchilds d))).

Lemma unlink_any d k c :
  Inv d k -> removable d k c ->
  exists d', unlink_node c d = Ok d' /\ Inv d' (cut [c] k) /\ same_meta d d' /\
    nodes_cut [c] (nodes d) (nodes d') /\ incl (pchilds d') ((0, 0) :: pchilds d).
Proof.
  intros I [Hb [[q Hq]|[Hf Hp]]].
  - apply in_split in Hq as (l1 & l2 & E).
    destruct (unlink_ok d k q l1 c l2 I E) as (d' & H1 & H2 & H3 & H4 & H5).
    exists d'. split; [auto|]. split; [|split; [auto|split; [|auto]]].
    + eapply Inv_ext; [|exact H2]. intros q'.
      rewrite <- (without_upk k q l1 c l2 _ (inv_kw _ _ I) E q').
      unfold cut, without. apply filter_ext_in'. intros x _. simpl.
      now rewrite orb_false_r.
    + rewrite H4. apply nodes_cut_one.
  - exists (set_nodes d (upd (nodes d) c (removed_node c))).
    split; [eapply unlink_free; eauto|]. split; [|split; [reflexivity|split]].
    + eapply Inv_ext; [|apply Inv_set_node; eauto]. intros q. symmetry.
      apply cut_id. intros x Hx [->|[]]. exact (Hf q Hx).
    + simpl. apply nodes_cut_one.
    + simpl. intros x Hx. right; auto.
Qed.

Lemma removable_cut d k d' D c :
  removable d k c -> ~ In c D -> length (nodes d') = length (nodes d) ->
  incl (pchilds d') ((0, 0) :: pchilds d) ->
  removable d' (cut D k) c.
Proof.
  intros [Hb H] Hd Hl Hi. split; [lia|]. destruct H as [[q Hq]|[Hf Hp]].
  - left. exists q. apply cut_in. auto.
  - right. split.
    + intros q Hq. apply cut_in in Hq. exact (Hf q (proj1 Hq)).
    + intros p Hp'. apply Hi in Hp' as [Hp'|Hp'].
      * injection Hp' as <- <-. lia.
      * exact (Hp p Hp').
Qed.

Lemma remove_both fuel :
  (forall d k c, Inv d k -> removable d k c ->
     2 * length (pre (length (nodes d)) k c) <= fuel ->
     exists d', remove_node_f fuel c d = Ok d' /\
       Inv d' (cut (pre (length (nodes d)) k c) k) /\ same_meta d d' /\
       nodes_cut (pre (length (nodes d)) k c) (nodes d) (nodes d') /\
       incl (pchilds d') ((0, 0) :: pchilds d)) /\
  (forall d k c, Inv d k -> c <> 0 ->
     1 + 2 * length (pres (length (nodes d)) k (k (Par c))) <= fuel ->
     exists d', remove_children_f fuel c d = Ok d' /\
       Inv d' (cut (pres (length (nodes d)) k (k (Par c))) k) /\ same_meta d d' /\
       nodes_cut (pres (length (nodes d)) k (k (Par c))) (nodes d) (nodes d') /\
       incl (pchilds d') ((0, 0) :: pchilds d)).
Proof.
  induction fuel as [|fuel [IHn IHc]]; split.
  - intros d k c I R Hf. exfalso. rewrite pre_eq in Hf by apply I. simpl in Hf. lia.
  - intros d k c I R Hf. lia.
  - intros d k c I R Hf. pose proof (inv_kw _ _ I) as W.
    set (n := length (nodes d)) in *. rewrite (pre_eq n k c W) in *.
    cbn [length] in Hf. cbn [remove_node_f].
    set (D := pres n k (k (Par c))) in *.
    assert (Hc0 : c <> 0) by (destruct R; lia).
    destruct (IHc d k c I Hc0) as (d1 & -> & I1 & M1 & N1 & P1); [fold n; fold D; lia|].
    cbn [bind]. fold n in N1, I1. fold D in N1, I1.
    assert (Hl : length (nodes d1) = n) by (apply N1).
    assert (HcD : ~ In c D).
    { intros H. apply pres_in in H as (y & Hy & H). apply pre_ge in H; auto.
      pose proof (kw_order _ _ W _ _ Hy). lia. }
    assert (R1 : removable d1 (cut D k) c) by (eapply removable_cut; eauto).
    destruct (unlink_any d1 _ c I1 R1) as (d2 & -> & I2 & M2 & N2 & P2).
    exists d2. split; auto. split; [|split; [|split]].
    + eapply Inv_ext; [|exact I2]. intros q. rewrite (cut_app D [c] k q).
      apply cut_set. intros x. rewrite in_app_iff. simpl. tauto.
    + eapply same_meta_trans; eauto.
    + destruct (nodes_cut_app _ _ _ _ _ N1 N2) as [L3 N3]. split; auto.
      intros i m Hi. rewrite (N3 i m Hi). unfold mem. rewrite existsb_app. simpl.
      rewrite orb_false_r, orb_comm. reflexivity.
    + intros x Hx. apply P2 in Hx as [<-|Hx]; [left; auto|]. apply P1 in Hx. exact Hx.
  - intros d k c I Hc0 Hf. pose proof (inv_kw _ _ I) as W.
    set (n := length (nodes d)) in *. cbn [remove_children_f].
    rewrite (get_first_child_at I c Hc0).
    destruct (k (Par c)) as [|x l] eqn:Ek.
    + simpl. exists d. split; auto. split; [|split; [|split]].
      * eapply Inv_ext; [|exact I]. intros q. symmetry. apply cut_nil.
      * apply same_meta_refl.
      * apply nodes_cut_nil.
      * intros y Hy. right; auto.
    + assert (Hx : In x (k (Par c))) by (rewrite Ek; simpl; auto).
      pose proof (kw_bound _ _ W _ _ Hx) as Hxb.
      destruct (Nat.ltb_spec 0 x); [|lia].
      cbn [pres flat_map] in Hf. fold (pres n k l) in Hf.
      rewrite app_length in Hf.
      assert (Hlen : 1 <= length (pre n k x)) by (rewrite pre_eq by auto; simpl; lia).
      destruct (IHn d k x I) as (d1 & -> & I1 & M1 & N1 & P1).
      { split; [lia|]. left. eauto. }
      { fold n. lia. }
      fold n in I1, N1. cbn [bind].
      set (D1 := pre n k x) in *.
      assert (Hl : length (nodes d1) = n) by (apply N1).
      pose proof (kw_nodup _ _ W (Par c)) as Hnd. rewrite Ek in Hnd.
      assert (Dsj : forall y, In y l -> forall z, In z (pre n k y) -> ~ In z D1).
      { intros y Hy z Hz Hz'.
        assert (y = x).
        { apply (pre_sibling n k c y x z W); auto. rewrite Ek. simpl; auto. }
        subst y. inversion Hnd; subst. auto. }
      assert (Ek1 : cut D1 k (Par c) = l).
      { unfold cut. rewrite Ek. simpl.
        assert (E1 : mem x D1 = true) by (apply mem_in, pre_self; auto).
        rewrite E1. simpl. apply filter_all. intros y Hy.
        apply negb_true_iff, mem_not. apply (Dsj y Hy). now apply pre_self. }
      assert (Epre : pres n (cut D1 k) l = pres n k l).
      { unfold pres. apply flat_map_ext_in. intros y Hy. apply pre_cut; auto.
        intros z Hz. right. eapply Dsj; eauto. }
      destruct (IHc d1 (cut D1 k) c I1 Hc0) as (d2 & -> & I2 & M2 & N2 & P2).
      { rewrite Hl, Ek1, Epre. lia. }
      rewrite Hl, Ek1, Epre in I2, N2.
      exists d2. split; auto. cbn [pres flat_map]. fold (pres n k l). fold D1.
      split; [|split; [|split]].
      * eapply Inv_ext; [|exact I2]. apply cut_app.
      * eapply same_meta_trans; eauto.
      * eapply nodes_cut_app; eauto.
      * intros y Hy. apply P2 in Hy as [<-|Hy]; [left; auto|]. apply P1 in Hy. exact Hy.
Qed.

Lemma remove_node_ok d k c :
  Inv d k -> removable d k c ->
  exists d', remove_node c d = Ok d' /\
    Inv d' (cut (pre (length (nodes d)) k c) k) /\ same_meta d d' /\
    nodes_cut (pre (length (nodes d)) k c) (nodes d) (nodes d') /\
    incl (pchilds d') ((0, 0) :: pchilds d).
Proof.
  intros I R. apply remove_both; auto. unfold remove_fuel.
  pose proof (pre_length d k c I). lia.
Qed.

Lemma remove_children_ok d k c :
  Inv d k -> c <> 0 ->
  exists d', remove_children c d = Ok d' /\
    Inv d' (cut (pres (length (nodes d)) k (k (Par c))) k) /\ same_meta d d' /\
    nodes_cut (pres (length (nodes d)) k (k (Par c))) (nodes d) (nodes d') /\
    incl (pchilds d') ((0, 0) :: pchilds d).
Proof.
  intros I R. apply remove_both; auto. unfold remove_fuel.
  pose proof (pre_length d k c I) as H. rewrite pre_eq in H by apply I.
  simpl in H. lia.
Qed.

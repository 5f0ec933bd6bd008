(** * Walking a DOM whose links are incomplete. *)
From Coq Require Import List NArith Arith Bool Lia.
From Verif Require Import Base TrieModel DomModel ParserModel ReadModel DomSpec
  Lemmas Tables Inv Surgery Attach Link RegProofs ParseSafe ParseTree Walk CrashSpec.
Import ListNotations.
Local Open Scope nat_scope.


(** Parents have smaller ids than their children. *)
Definition ordered_pc (d : dom) : Prop :=
  forall a b, In (a, b) (pchilds d) -> (a = 0 /\ b = 0) \/ a < b.

Definition cnt (p : nat) (l : list (nat * nat)) : nat :=
  length (filter (fun e => (0 <? snd e) && (snd e <=? p)) l).
Lemma cnt_le p l : cnt p l <= length l.
Proof. unfold cnt. induction l as [|e l IH]; simpl; auto. destruct (_ && _); simpl; lia. Qed.
Lemma cnt_mono a p l : a <= p -> cnt a l <= cnt p l.
Proof.
  intro H. unfold cnt. induction l as [|e l IH]; simpl; auto.
  destruct (0 <? snd e) eqn:E1; simpl; auto.
  destruct (snd e <=? a) eqn:E2, (snd e <=? p) eqn:E3; simpl; try lia.
  apply Nat.leb_le in E2. apply Nat.leb_gt in E3. lia.
Qed.
Lemma cnt_drop a p l : a < p -> In (a, p) l -> cnt a l < cnt p l.
Proof.
  intros H I. induction l as [|e l IH]; [easy|]. unfold cnt in *. simpl. destruct I as [->|I].
  - pose proof (cnt_mono a p l ltac:(lia)) as M. unfold cnt in M. simpl.
    replace (0 <? p) with true by (symmetry; apply Nat.ltb_lt; lia).
    replace (p <=? a) with false by (symmetry; apply Nat.leb_gt; lia).
    rewrite Nat.leb_refl. simpl. lia.
  - specialize (IH I). destruct (0 <? snd e) eqn:E1; simpl; auto.
    destruct (snd e <=? a) eqn:E2, (snd e <=? p) eqn:E3; simpl; try lia.
    apply Nat.leb_le in E2. apply Nat.leb_gt in E3. lia.
Qed.
Lemma parent_entry c d : get_parent c d <> 0 -> In (get_parent c d, c) (pchilds d).
Proof.
  unfold get_parent. destruct (parent_idx c d) as [i|] eqn:E; [|easy]. intros _.
  apply find_idx_some in E. destruct E as (x & E & Hx & _). apply Nat.eqb_eq in Hx.
  unfold at_idx. erewrite nth_error_nth by eauto. apply nth_error_In in E.
  destruct x as [a b]. simpl in *. now subst.
Qed.
Lemma climb_total d : ordered_pc d -> forall fuel p stop, cnt p (pchilds d) < fuel ->
  exists v, climb fuel p stop d = Ok v.
Proof.
  intro O. induction fuel as [|f IH]; intros p stop H; [lia|]. cbn [climb].
  destruct ((p =? 0) || (p =? stop)) eqn:E; [eauto|]. destruct (get_next p d =? 0) eqn:E2; [|eauto].
  destruct (Nat.eq_dec (get_parent p d) 0) as [Z|Z].
  - rewrite Z. exists 0. destruct f; reflexivity.
  - apply IH. pose proof (parent_entry _ _ Z) as I. destruct (O _ _ I) as [[? _]|L]; [easy|].
    pose proof (cnt_drop _ _ _ L I). lia.
Qed.
Lemma climb_mono d : forall fuel fuel' p stop v, climb fuel p stop d = Ok v -> fuel <= fuel' ->
  climb fuel' p stop d = Ok v.
Proof.
  induction fuel as [|f IH]; intros [|f'] p stop v H L; try lia; cbn [climb] in *; auto.
  - destruct ((p =? 0) || (p =? stop)); auto. destruct (get_next p d =? 0); [discriminate|auto].
  - destruct ((p =? 0) || (p =? stop)); auto. destruct (get_next p d =? 0); auto.
    apply (IH f'); auto. lia.
Qed.
Lemma climb_det d f1 f2 p stop v1 v2 : climb f1 p stop d = Ok v1 -> climb f2 p stop d = Ok v2 -> v1 = v2.
Proof.
  intros H1 H2. destruct (le_ge_dec f1 f2) as [L|L].
  - rewrite (climb_mono _ _ _ _ _ _ H1 L) in H2. congruence.
  - rewrite (climb_mono _ _ _ _ _ _ H2 L) in H1. congruence.
Qed.

(** [d'] has the links of [d], except that a node may have lost its parent, or
    its parent and its next sibling. *)
Definition agree (d' d : dom) (c : nat) : Prop :=
  (get_next c d' = get_next c d /\ get_parent c d' = get_parent c d) \/
  (get_parent c d' = 0 /\ (get_next c d' = get_next c d \/ get_next c d' = 0)).

Section Cmp.
Context (d' d : dom) (V : nat -> Prop) (stop : nat).
Context (Hpar : forall c, V c -> c <> stop -> get_parent c d = 0 \/ V (get_parent c d)).
Context (Hagree : forall c, V c -> c <> stop -> agree d' d c).
Context (Hnext : forall c, V c -> c <> stop -> get_next c d = 0 \/ V (get_next c d)).
Context (Hord : ordered_pc d').

Lemma climb_cmp : forall fuel p v, p = 0 \/ V p -> climb fuel p stop d = Ok v ->
  (exists fuel' v', climb fuel' p stop d' = Ok v' /\ (v' = v \/ v' = 0)) /\ (v = 0 \/ V v).
Proof.
  induction fuel as [|f IH]; intros p v Hp H; cbn [climb] in H;
    (destruct ((p =? 0) || (p =? stop)) eqn:E;
       [injection H as <-; split; [|auto]; exists 0, 0; cbn [climb]; rewrite E; auto|]);
    pose proof E as E0; apply orb_false_iff in E; destruct E as [E1 E2]; apply Nat.eqb_neq in E1, E2;
    (destruct Hp as [Hp|Hp]; [easy|]);
    specialize (Hagree p Hp E2); specialize (Hpar p Hp E2); specialize (Hnext p Hp E2);
    (destruct (get_next p d =? 0) eqn:E3; [try discriminate|injection H as <-]).
  - apply Nat.eqb_neq in E3. split; [|tauto].
    assert (X : get_next p d' = get_next p d \/ get_next p d' = 0 /\ get_parent p d' = 0) by (destruct Hagree as [[]|[? []]]; tauto).
    exists 1. cbn [climb]. rewrite E0. destruct X as [X|[X1 X2]].
    + rewrite X. apply Nat.eqb_neq in E3. rewrite E3. eauto.
    + rewrite X1, X2. simpl. eauto.
  - apply Nat.eqb_eq in E3. destruct (IH _ _ Hpar H) as [(f' & v' & C & Cv) Vv]. split; [|auto].
    assert (X : get_next p d' = 0) by (destruct Hagree as [[]|[? []]]; congruence).
    destruct Hagree as [[A1 A2]|[A1 _]].
    + exists (S f'), v'. cbn [climb]. rewrite E0, X, A2. simpl. auto.
    + exists 1, 0. cbn [climb]. rewrite E0, X, A1. simpl. auto.
  - apply Nat.eqb_neq in E3. split; [|tauto].
    assert (X : get_next p d' = get_next p d \/ get_next p d' = 0 /\ get_parent p d' = 0) by (destruct Hagree as [[]|[? []]]; tauto).
    exists 1. cbn [climb]. rewrite E0. destruct X as [X|[X1 X2]].
    + rewrite X. apply Nat.eqb_neq in E3. rewrite E3. eauto.
    + rewrite X1, X2. simpl. eauto.
Qed.
Lemma climb_own p : exists v, climb (S (length (pchilds d'))) p stop d' = Ok v.
Proof. apply climb_total; auto. pose proof (cnt_le p (pchilds d')). lia. Qed.
Lemma climb_cmp2 fuel p v : p = 0 \/ V p -> climb fuel p stop d = Ok v ->
  (exists v', climb (S (length (pchilds d'))) p stop d' = Ok v' /\ (v' = v \/ v' = 0)) /\ (v = 0 \/ V v).
Proof.
  intros Hp H. destruct (climb_cmp _ _ _ Hp H) as [(f & v' & C & Cv) Vv]. split; [|auto].
  destruct (climb_own p) as [w Cw]. exists w. split; auto. rewrite (climb_det _ _ _ _ _ _ _ Cw C). auto.
Qed.

Lemma climb_cmp0 : stop = 0 -> forall fuel p v, p = 0 \/ V p -> climb fuel p 0 d = Ok v ->
  (exists v', climb (S (length (pchilds d'))) p 0 d' = Ok v' /\ (v' = v \/ v' = 0)) /\ (v = 0 \/ V v).
Proof. intro E. pose proof climb_cmp2 as X. rewrite E in X. exact X. Qed.

Context (Hfirst : forall c, V c -> get_first_child c d' = get_first_child c d).
Context (Hfirst0 : forall c, V c -> get_first_child c d = 0 \/ V (get_first_child c d)).

Lemma climb_zero fuel st x : climb fuel 0 st x = Ok 0.
Proof. destruct fuel; reflexivity. Qed.

Lemma step_cmp c v : stop = 0 -> V c -> c <> 0 -> traverse_dom c d = Ok v ->
  (exists v', traverse_dom c d' = Ok v' /\ (v' = v \/ v' = 0)) /\ (v = 0 \/ V v).
Proof.
  intros Es Vc Hc0 H. assert (Hc : c <> stop) by congruence. unfold traverse_dom in *. rewrite (Hfirst c Vc).
  destruct (get_first_child c d =? 0) eqn:E1; simpl negb in *; cbv iota in *.
  2:{ injection H as <-. apply Nat.eqb_neq in E1. pose proof (Hfirst0 c Vc) as F0. split; [eauto|tauto]. }
  pose proof (Hagree c Vc Hc) as Ag. pose proof (Hpar c Vc Hc) as Pa. pose proof (Hnext c Vc Hc) as Ne.
  destruct (get_next c d =? 0) eqn:E2; simpl negb in *; cbv iota in *.
  - apply Nat.eqb_eq in E2. destruct (climb_cmp0 Es _ _ _ Pa H) as [(v' & C & Cv) Vv]. split; [|auto].
    assert (X : get_next c d' = 0) by (destruct Ag as [[]|[? []]]; congruence).
    rewrite X. change (negb (0 =? 0)) with false. cbv iota. destruct Ag as [[A1 A2]|[A1 _]].
    + rewrite A2. eauto.
    + rewrite A1. rewrite climb_zero. eauto.
  - injection H as <-. apply Nat.eqb_neq in E2. split; [|tauto].
    assert (X : get_next c d' = get_next c d \/ get_next c d' = 0 /\ get_parent c d' = 0) by (destruct Ag as [[]|[? []]]; tauto).
    destruct X as [X|[X1 X2]].
    + rewrite X. apply Nat.eqb_neq in E2. rewrite E2. simpl. eauto.
    + rewrite X1, X2. change (negb (0 =? 0)) with false. cbv iota. rewrite climb_zero. eauto.
Qed.
Lemma walk_cmp c l : stop = 0 -> dom_walk d c l -> V c -> c <> 0 ->
  exists l', dom_walk d' c l' /\ prefix l' l.
Proof.
  intros E W. induction W as [c H|c v l H Hv W IH]; intros Vc Hc.
  - destruct (step_cmp _ _ E Vc Hc H) as [(v' & C & [->| ->]) _]; (exists []; split; [now constructor|now exists []]).
  - destruct (step_cmp _ _ E Vc Hc H) as [(v' & C & [->| ->]) Vv].
    + destruct IH as (l' & W' & r & ->); [tauto|auto|]. exists (v :: l'). split; [econstructor; eauto|now exists r].
    + exists []. split; [now constructor|now exists (v :: l)].
Qed.

(** The same with a scope. *)
Lemma nstep_cmp c v : stop <> 0 -> V c -> (c = stop -> get_first_child c d' <> 0 \/ get_next c d' = 0) ->
  traverse_node c stop d = Ok v ->
  (exists v', traverse_node c stop d' = Ok v' /\ (v' = v \/ v' = 0)) /\
  (c <> stop \/ get_first_child c d' <> 0 -> v = 0 \/ V v).
Proof.
  intros Hs Vc Hc H. unfold traverse_node in *. rewrite (Hfirst c Vc) in *.
  destruct (get_first_child c d =? 0) eqn:E1; simpl negb in *; cbv iota in *.
  2:{ injection H as <-. apply Nat.eqb_neq in E1. pose proof (Hfirst0 c Vc) as F0. split; [eauto|tauto]. }
  apply Nat.eqb_eq in E1. destruct (Nat.eq_dec c stop) as [->|Hn].
  - destruct (Hc eq_refl) as [X|X]; [easy|]. rewrite X. simpl. rewrite Nat.eqb_refl. simpl. split; [eauto|].
    intros [?|?]; easy.
  - pose proof (Hagree c Vc Hn) as Ag. pose proof (Hpar c Vc Hn) as Pa. pose proof (Hnext c Vc Hn) as Ne.
    pose proof Hn as Hn'. apply Nat.eqb_neq in Hn'. rewrite Hn' in *. simpl negb in *.
    destruct ((0 <? get_next c d) && negb (get_next c d =? stop)) eqn:E2.
    + injection H as <-. apply andb_true_iff in E2. destruct E2 as [E2 E3]. apply Nat.ltb_lt in E2.
      split; [|intros _; destruct Ne; [lia|auto]].
      assert (X : get_next c d' = get_next c d \/ get_next c d' = 0 /\ get_parent c d' = 0) by (destruct Ag as [[]|[? []]]; tauto).
      destruct X as [X|[X1 X2]].
      * rewrite X. replace (0 <? get_next c d) with true by (symmetry; now apply Nat.ltb_lt). rewrite E3. simpl. eauto.
      * rewrite X1, X2, climb_zero. simpl. eauto.
    + destruct (climb_cmp2 _ _ _ Pa H) as [(v' & C & Cv) Vv]. split; [|auto].
      assert (X : (0 <? get_next c d') && negb (get_next c d' =? stop) = false).
      { assert (Y : get_next c d' = get_next c d \/ get_next c d' = 0) by (destruct Ag as [[]|[? []]]; tauto).
        destruct Y as [-> | ->]; auto. }
      rewrite X. destruct Ag as [[A1 A2]|[A1 _]].
      * rewrite A2. eauto.
      * rewrite A1, climb_zero. eauto.
Qed.
Lemma nwalk_cmp c l : stop <> 0 -> node_walk d stop c l -> V c ->
  (c = stop -> get_first_child c d' <> 0 \/ get_next c d' = 0) ->
  (forall x, V x -> get_first_child x d <> stop) -> (forall x, V x -> x <> stop -> get_next x d <> stop) ->
  (forall x, V x -> x <> 0) ->
  exists l', node_walk d' stop c l' /\ prefix l' l.
Proof.
  intros E W. induction W as [c H|c v l H Hv W IH]; intros Vc Hc F1 F2 F3.
  - destruct (nstep_cmp _ _ E Vc Hc H) as [(v' & C & [->| ->]) _]; (exists []; split; [now constructor|now exists []]).
  - destruct (nstep_cmp _ _ E Vc Hc H) as [(v' & C & [->| ->]) Vv].
    + destruct (Nat.eq_dec (get_first_child c d') 0) as [Z|Z].
      * destruct (Nat.eq_dec c stop) as [->|Hn].
        { (* the scope itself, childless: stops *)
          destruct (Hc eq_refl) as [?|Y]; [easy|]. unfold traverse_node in C. rewrite Z, Y in C. simpl in C.
          rewrite Nat.eqb_refl in C. simpl in C. congruence. }
        destruct Vv as [?|Vv]; [auto|easy|].
        destruct (Nat.eq_dec v stop) as [->|Hvs].
        { exfalso. clear IH W C. unfold traverse_node in H. rewrite <- (Hfirst c Vc), Z in H. simpl in H.
          pose proof (F2 c Vc Hn) as G2.
          destruct ((0 <? get_next c d) && negb (get_next c d =? stop)) eqn:E2; [congruence|].
          apply Nat.eqb_neq in Hn. rewrite Hn in H. simpl in H. apply Nat.eqb_neq in Hn.
          assert (K : forall fuel p, p = 0 \/ V p -> climb fuel p stop d <> Ok stop).
          { induction fuel as [|f IHf]; intros p Hp; cbn [climb];
              (destruct ((p =? 0) || (p =? stop)) eqn:Ep; [congruence|]);
              apply orb_false_iff in Ep; destruct Ep as [Ep1 Ep2]; apply Nat.eqb_neq in Ep1, Ep2;
              (destruct Hp as [?|Hp]; [easy|]); pose proof (F2 p Hp Ep2);
              (destruct (get_next p d =? 0); [|congruence]); [congruence|].
            apply IHf. exact (Hpar p Hp Ep2). }
          exact (K (S (length (pchilds d))) _ (Hpar c Vc Hn) H). }
        destruct IH as (l' & W' & r & ->); auto; try (intro; easy). exists (v :: l'). split; [econstructor; eauto|now exists r].
      * destruct Vv as [?|Vv]; [auto|easy|].
        assert (Hvs : v <> stop).
        { unfold traverse_node in H. rewrite (Hfirst c Vc) in Z. apply Nat.eqb_neq in Z. rewrite Z in H. simpl in H.
          injection H as <-. now apply F1. }
        destruct IH as (l' & W' & r & ->); auto; try (intro; easy). exists (v :: l'). split; [econstructor; eauto|now exists r].
    + exists []. split; [now constructor|now exists (v :: l)].
Qed.
End Cmp.

(** ** Child lists depend on two of the tables only. *)
Lemma sibs_ext d d' : (forall c, c <> 0 -> get_next c d' = get_next c d) ->
  forall c l, sibs d c l -> sibs d' c l.
Proof. intros H c l S. induction S; constructor; auto. rewrite H; auto. Qed.
Lemma sibs_in d d' : forall c l, sibs d c l -> (forall x, In x l -> get_next x d' = get_next x d) -> sibs d' c l.
Proof.
  intros c l S. induction S; intro Hx; constructor; auto. rewrite Hx by (now left). apply IHS. intros. apply Hx. now right.
Qed.

(** * Attributes: reading and changing them. *)
From Coq Require Import List NArith Arith Bool Lia.
From Verif Require Import Base TrieModel DomModel ParserModel EditModel ReadModel DomSpec
  Lemmas TrieProofs Tables Inv Surgery Attach Replace Link RegProofs ParseSafe ParseTree
  ParseLoop Walk EditProofs EditOps.
Import ListNotations.
Local Open Scope nat_scope.

(** ** Interned ids *)
Lemma lookup_lt k l : lookup k l <= length l.
Proof.
  unfold lookup. destruct (find_idx (beq k) l) as [i|] eqn:E; [|lia].
  apply find_idx_some in E as (x & H & _). apply nth_lt in H. lia.
Qed.

Lemma reg_find reg m s : reg_ok reg m ->
  exists id, map_contains s m = Ok id /\ id < length reg /\
    (forall i, i <> 0 -> i < length reg -> (nth i reg [] = s <-> i = id)).
Proof.
  intros (l & -> & Hm). exists (lookup s l). split; [now apply map_contains_ok|].
  split; [simpl; pose proof (lookup_lt s l); lia|].
  intros i Hi Hl. destruct i as [|i]; [congruence|]. simpl in *.
  apply Nat.succ_lt_mono in Hl.
  destruct Hm as (_ & _ & Nd). split.
  - intros E. assert (Hn : nth_error l i = Some s).
    { rewrite nth_error_nth' with (d := []) by exact Hl. f_equal. exact E. }
    assert (Hin : In s l) by (eapply nth_error_In; eauto).
    apply lookup_in in Hin. destruct (lookup s l) as [|j] eqn:El; [congruence|].
    apply lookup_nth in El. f_equal. eapply (proj1 (NoDup_nth_error l)); eauto. transitivity (Some s); auto.
  - intros E. symmetry in E. apply lookup_nth in E. now apply nth_error_nth.
Qed.

Lemma existsb_map_in {A B} (f : A -> bool) (g : A -> bool) (h : A -> B) (x : B) l :
  (forall e, In e l -> g e = true -> (f e = true <-> h e = x)) ->
  (existsb (fun e => g e && f e) l = true <-> In x (map h (filter g l))).
Proof.
  intros H. rewrite existsb_exists, in_map_iff. split.
  - intros (e & He & E). apply andb_true_iff in E as [E1 E2]. exists e. split.
    + apply H; auto.
    + apply filter_In. auto.
  - intros (e & E & He). apply filter_In in He as [He1 He2]. exists e. split; auto.
    apply andb_true_iff. split; auto. apply H; auto.
Qed.

Section Read.
  Context (d : dom) (R : RegInv d) (n : nat) (Hn : n <> 0).

  Lemma has_bool_prop_ok b :
    exists r, has_bool_prop n b d = Ok r /\ (r = true <-> In b (bool_attrs d n)).
  Proof.
    destruct (reg_find _ _ b (ri_bool _ R)) as (id & E & Hl & H).
    unfold has_bool_prop. rewrite E. cbn [bind].
    assert (HH : forall e, In e (bprops d) -> fst e =? n = true ->
       (snd e =? id = true <-> nth (snd e) (bool_reg d) [] = b)).
    { intros e He E1. apply Nat.eqb_eq in E1. rewrite Nat.eqb_eq.
      destruct (ri_bprops _ R e He) as (_ & H2 & H3). symmetry. apply H; auto.
      apply H3. congruence. }
    destruct (Nat.eqb_spec id 0) as [->|Hid].
    - exists false. split; auto. split; [discriminate|]. unfold bool_attrs.
      intros Hin. apply (proj2 (existsb_map_in _ _ _ _ _ HH)) in Hin.
      apply existsb_exists in Hin as (e & He & Hb). apply andb_true_iff in Hb as [H1 H2].
      apply Nat.eqb_eq in H1, H2. destruct (ri_bprops _ R e He) as (_ & _ & H3).
      exfalso. apply H3; congruence.
    - eexists. split; [reflexivity|]. apply existsb_map_in. exact HH.
  Qed.

  Lemma key_match k kid :
    (forall i, i <> 0 -> i < length (key_reg d) -> (nth i (key_reg d) [] = k <-> i = kid)) ->
    forall e, In e (props d) -> p_node e =? n = true ->
      (p_key e =? kid = true <-> fst (rd_prop d e) = k).
  Proof.
    intros H e He E. apply Nat.eqb_eq in E. rewrite Nat.eqb_eq.
    destruct (ri_props _ R e He) as (_ & H2 & H3 & H4). destruct H4 as [H4 H5]; [congruence|].
    unfold rd_prop. simpl. symmetry. apply H; auto.
  Qed.
  Lemma val_match v vid :
    (forall i, i <> 0 -> i < length (val_reg d) -> (nth i (val_reg d) [] = v <-> i = vid)) ->
    forall e, In e (props d) -> p_node e =? n = true ->
      (p_val e =? vid = true <-> snd (rd_prop d e) = v).
  Proof.
    intros H e He E. apply Nat.eqb_eq in E. rewrite Nat.eqb_eq.
    destruct (ri_props _ R e He) as (_ & H2 & H3 & H4). destruct H4 as [H4 H5]; [congruence|].
    unfold rd_prop. simpl. symmetry. apply H; auto.
  Qed.
  Lemma pnz e : In e (props d) -> p_node e =? n = true -> p_key e <> 0 /\ p_val e <> 0.
  Proof.
    intros He E. apply Nat.eqb_eq in E.
    destruct (ri_props _ R e He) as (_ & _ & _ & H4). apply H4. congruence.
  Qed.

  Lemma attrs_map {B} (g : bytes * bytes -> B) :
    map g (attrs d n) = map (fun e => g (rd_prop d e)) (filter (fun e => p_node e =? n) (props d)).
  Proof. unfold attrs. rewrite map_map. reflexivity. Qed.

  Lemma has_prop_key_ok k :
    exists r, has_prop_key n k d = Ok r /\ (r = true <-> In k (map fst (attrs d n))).
  Proof.
    destruct (reg_find _ _ k (ri_key _ R)) as (id & E & Hl & H).
    unfold has_prop_key. rewrite E. cbn [bind]. pose proof (key_match k id H) as HH.
    rewrite attrs_map.
    destruct (Nat.eqb_spec id 0) as [->|Hid].
    - exists false. split; auto. split; [discriminate|].
      intros Hin. apply (proj2 (existsb_map_in _ _ _ _ _ HH)) in Hin.
      apply existsb_exists in Hin as (e & He & Hb). apply andb_true_iff in Hb as [H1 H2].
      apply Nat.eqb_eq in H2. exfalso. destruct (pnz e He H1); auto.
    - eexists. split; [reflexivity|]. apply existsb_map_in. exact HH.
  Qed.

  Lemma has_prop_value_ok v :
    exists r, has_prop_value n v d = Ok r /\ (r = true <-> In v (map snd (attrs d n))).
  Proof.
    destruct (reg_find _ _ v (ri_val _ R)) as (id & E & Hl & H).
    unfold has_prop_value. rewrite E. cbn [bind]. pose proof (val_match v id H) as HH.
    rewrite attrs_map.
    destruct (Nat.eqb_spec id 0) as [->|Hid].
    - exists false. split; auto. split; [discriminate|].
      intros Hin. apply (proj2 (existsb_map_in _ _ _ _ _ HH)) in Hin.
      apply existsb_exists in Hin as (e & He & Hb). apply andb_true_iff in Hb as [H1 H2].
      apply Nat.eqb_eq in H2. exfalso. destruct (pnz e He H1); auto.
    - eexists. split; [reflexivity|]. apply existsb_map_in. exact HH.
  Qed.

  Lemma has_property_ok k v :
    exists r, has_property n k v d = Ok r /\ (r = true <-> In (k, v) (attrs d n)).
  Proof.
    destruct (reg_find _ _ k (ri_key _ R)) as (kid & E & Hl & H).
    destruct (reg_find _ _ v (ri_val _ R)) as (vid & Ev & Hlv & Hv).
    unfold has_property. rewrite E. cbn [bind]. rewrite Ev. cbn [bind].
    assert (HH : forall e, In e (props d) -> p_node e =? n = true ->
      ((p_key e =? kid) && (p_val e =? vid) = true <-> rd_prop d e = (k, v))).
    { intros e He E1. rewrite andb_true_iff, (key_match k kid H e He E1),
        (val_match v vid Hv e He E1). destruct (rd_prop d e). simpl. split.
      - intros [-> ->]. auto.
      - intros E2. injection E2. auto. }
    destruct (Nat.eqb_spec kid 0) as [->|Hid].
    - exists false. split; auto. split; [discriminate|].
      intros Hin. apply (proj2 (existsb_map_in _ _ _ _ _ HH)) in Hin.
      apply existsb_exists in Hin as (e & He & Hb). apply andb_true_iff in Hb as [H1 H2].
      apply andb_true_iff in H2 as [H2 _].
      apply Nat.eqb_eq in H2. exfalso. destruct (pnz e He H1); auto.
    - eexists. split; [reflexivity|].
      rewrite <- (existsb_map_in _ _ _ _ _ HH). 
      assert (Ex : forall l, existsb (fun e => (p_node e =? n) && (p_key e =? kid) && (p_val e =? vid)) l
        = existsb (fun e => (p_node e =? n) && ((p_key e =? kid) && (p_val e =? vid))) l).
      { induction l as [|a l IH]; simpl; auto. now rewrite IH, andb_assoc. }
      rewrite Ex. reflexivity.
  Qed.

  (** The first matching entry. *)
  Lemma prop_split k kid :
    (forall i, i <> 0 -> i < length (key_reg d) -> (nth i (key_reg d) [] = k <-> i = kid)) ->
    match prop_idx n kid d with
    | Some i => exists l1 e l2, props d = l1 ++ e :: l2 /\ length l1 = i /\ p_node e = n /\
         fst (rd_prop d e) = k /\
         ~ In k (map fst (map (rd_prop d) (filter (fun e => p_node e =? n) l1))) /\
         find (fun e => (p_node e =? n) && (p_key e =? kid)) (props d) = Some e
    | None => ~ In k (map fst (attrs d n)) /\
         find (fun e => (p_node e =? n) && (p_key e =? kid)) (props d) = None
    end.
  Proof.
    intros H. unfold prop_idx. pose proof (key_match k kid H) as HH. unfold attrs.
    change (fun e => (nth (p_key e) (key_reg d) [], nth (p_val e) (val_reg d) [])) with (rd_prop d).
    assert (G : forall l, (forall e, In e l -> In e (props d)) ->
      match find_idx (fun e => (p_node e =? n) && (p_key e =? kid)) l with
      | Some i => exists l1 e l2, l = l1 ++ e :: l2 /\ length l1 = i /\ p_node e = n /\
         fst (rd_prop d e) = k /\
         ~ In k (map fst (map (rd_prop d) (filter (fun e => p_node e =? n) l1))) /\
         find (fun e => (p_node e =? n) && (p_key e =? kid)) l = Some e
      | None => ~ In k (map fst (map (rd_prop d) (filter (fun e => p_node e =? n) l))) /\
         find (fun e => (p_node e =? n) && (p_key e =? kid)) l = None
      end).
    { induction l as [|a l IH]; intros Hin; simpl; auto.
      destruct (p_node a =? n) eqn:E1; simpl.
      - destruct (p_key a =? kid) eqn:E2; simpl.
        + exists [], a, l. simpl. repeat split; auto.
          * now apply Nat.eqb_eq.
          * apply HH; simpl; auto. apply Hin. simpl; auto.
        + assert (Ha : fst (rd_prop d a) <> k).
          { intros E. apply HH in E; auto; [congruence|]. apply Hin; simpl; auto. }
          specialize (IH (fun e He => Hin e (or_intror He))).
          destruct (find_idx _ l) as [i|].
          * destruct IH as (l1 & e & l2 & I1 & I2 & I3 & I4 & I5 & I6).
            exists (a :: l1), e, l2. simpl. rewrite E1. simpl. rewrite I1 at 1.
            repeat split; auto. intros [?|?]; auto.
          * destruct IH as [I1 I2]. simpl. split; auto. intros [?|?]; auto.
      - specialize (IH (fun e He => Hin e (or_intror He))).
        destruct (find_idx _ l) as [i|]; auto.
        destruct IH as (l1 & e & l2 & I1 & I2 & I3 & I4 & I5 & I6).
        exists (a :: l1), e, l2. simpl. rewrite E1. rewrite I1 at 1. auto 10. }
    apply G. auto.
  Qed.

  Lemma bprop_split b bid :
    (forall i, i <> 0 -> i < length (bool_reg d) -> (nth i (bool_reg d) [] = b <-> i = bid)) ->
    match bprop_idx n bid d with
    | Some i => exists l1 e l2, bprops d = l1 ++ e :: l2 /\ length l1 = i /\ fst e = n /\
         rd_bool d e = b /\ ~ In b (map (rd_bool d) (filter (fun e => fst e =? n) l1))
    | None => ~ In b (bool_attrs d n)
    end.
  Proof.
    intros H. unfold bprop_idx, bool_attrs.
    change (fun e : nat * nat => nth (snd e) (bool_reg d) []) with (rd_bool d).
    assert (HH : forall e, In e (bprops d) -> fst e =? n = true ->
       (snd e =? bid = true <-> rd_bool d e = b)).
    { intros e He E1. apply Nat.eqb_eq in E1. rewrite Nat.eqb_eq.
      destruct (ri_bprops _ R e He) as (_ & H2 & H3). symmetry. apply H; auto.
      apply H3. congruence. }
    assert (G : forall l, (forall e, In e l -> In e (bprops d)) ->
      match find_idx (fun e => (fst e =? n) && (snd e =? bid)) l with
      | Some i => exists l1 e l2, l = l1 ++ e :: l2 /\ length l1 = i /\ fst e = n /\
         rd_bool d e = b /\ ~ In b (map (rd_bool d) (filter (fun e => fst e =? n) l1))
      | None => ~ In b (map (rd_bool d) (filter (fun e => fst e =? n) l))
      end).
    { induction l as [|a l IH]; intros Hin; simpl; auto.
      destruct (fst a =? n) eqn:E1; simpl.
      - destruct (snd a =? bid) eqn:E2; simpl.
        + exists [], a, l. simpl. repeat split; auto.
          * now apply Nat.eqb_eq.
          * apply HH; simpl; auto. apply Hin. simpl; auto.
        + assert (Ha : rd_bool d a <> b).
          { intros E. apply HH in E; auto; [congruence|]. apply Hin; simpl; auto. }
          specialize (IH (fun e He => Hin e (or_intror He))).
          destruct (find_idx _ l) as [i|].
          * destruct IH as (l1 & e & l2 & I1 & I2 & I3 & I4 & I5).
            exists (a :: l1), e, l2. simpl. rewrite E1. simpl. rewrite I1 at 1.
            repeat split; auto. intros [?|?]; auto.
          * simpl. intros [?|?]; auto.
      - specialize (IH (fun e He => Hin e (or_intror He))).
        destruct (find_idx _ l) as [i|]; auto.
        destruct IH as (l1 & e & l2 & I1 & I2 & I3 & I4 & I5).
        exists (a :: l1), e, l2. simpl. rewrite E1. rewrite I1 at 1. auto 10. }
    apply G. auto.
  Qed.
End Read.

(** ** List-level facts *)
Lemma first_value_at k v A1 A2 :
  ~ In k (map fst A1) -> first_value k (A1 ++ (k, v) :: A2) = Some v.
Proof.
  induction A1 as [|[k' v'] A1 IH]; simpl; intros H.
  - now rewrite beq_refl.
  - rewrite (proj2 (beq_neq k k')) by (intros ->; auto). auto.
Qed.
Lemma first_value_none k A : ~ In k (map fst A) -> first_value k A = None.
Proof.
  induction A as [|[k' v'] A IH]; simpl; intros H; auto.
  rewrite (proj2 (beq_neq k k')) by (intros ->; auto). auto.
Qed.
Lemma set_first_at k v v0 A1 A2 :
  ~ In k (map fst A1) -> set_first k v (A1 ++ (k, v0) :: A2) = A1 ++ (k, v) :: A2.
Proof.
  induction A1 as [|[k' v'] A1 IH]; simpl; intros H.
  - now rewrite beq_refl.
  - rewrite (proj2 (beq_neq k k')) by (intros ->; auto). now rewrite IH by auto.
Qed.
Lemma remove_first_at {A} (f : A -> bool) x A1 A2 :
  (forall y, In y A1 -> f y = false) -> f x = true ->
  remove_first f (A1 ++ x :: A2) = A1 ++ A2.
Proof.
  induction A1 as [|y A1 IH]; simpl; intros H Hx.
  - now rewrite Hx.
  - rewrite (H y) by auto. now rewrite IH by auto.
Qed.
Lemma remove_first_none {A} (f : A -> bool) l :
  (forall y, In y l -> f y = false) -> remove_first f l = l.
Proof.
  induction l as [|y l IH]; simpl; intros H; auto.
  rewrite (H y) by auto. now rewrite IH by auto.
Qed.
Lemma upd_mid {A} (l1 : list A) e l2 x : upd (l1 ++ e :: l2) (length l1) x = l1 ++ x :: l2.
Proof. induction l1; simpl; auto. now rewrite IHl1. Qed.

Lemma Good_nav d d' k : Good d k -> nav_eq d d' -> RegInv d' -> Good d' k.
Proof.
  intros [I R T] Hn R'. constructor; auto.
  - eapply Inv_nav; eauto.
  - destruct Hn as (E & _). destruct T. constructor; unfold kind in *; rewrite ?E; auto.
Qed.

Lemma get_value_ok d n k : RegInv d -> n <> 0 ->
  get_value n k d = Ok (match first_value k (attrs d n) with Some v => v | None => [] end).
Proof.
  intros R Hn. destruct (reg_find _ _ k (ri_key _ R)) as (kid & E & Hl & H).
  unfold get_value. rewrite E. cbn [bind].
  pose proof (prop_split d R n Hn k kid H) as P. destruct (prop_idx n kid d) as [i|] eqn:Ei.
  - destruct P as (l1 & e & l2 & P1 & P2 & P3 & P4 & P5 & P6).
    assert (He : In e (props d)) by (rewrite P1; apply in_elt).
    destruct (ri_props _ R e He) as (_ & B1 & B2 & B3). destruct B3 as [B3 B4]; [congruence|].
    assert (Ek : p_key e = kid).
    { apply Nat.eqb_eq. apply (key_match d R n Hn k kid H e He); auto. now apply Nat.eqb_eq. }
    destruct (Nat.eqb_spec kid 0); [congruence|]. rewrite P6. cbv beta iota.
    rewrite (@nth_error_nth' bytes (val_reg d) (p_val e) [] B2). f_equal.
    assert (Ea : attrs d n = map (rd_prop d) (filter (fun e => p_node e =? n) l1) ++
       (k, nth (p_val e) (val_reg d) []) :: map (rd_prop d) (filter (fun e => p_node e =? n) l2)).
    { unfold attrs. rewrite P1, filter_app. simpl.
      rewrite (proj2 (Nat.eqb_eq _ _) P3), map_app. simpl. rewrite <- P4. reflexivity. }
    rewrite Ea, first_value_at; auto.
  - destruct P as [P1 P2]. rewrite first_value_none by auto.
    destruct (kid =? 0); auto. now rewrite P2.
Qed.

(** ** Changing attributes *)

(** [d'] differs from [d] in the attributes of [n] only. *)
Definition attrs_only (d d' : dom) (n : nat) : Prop :=
  nav_eq d d' /\ kind d' n = kind d n /\ tag_name d' n = tag_name d n /\
  text_of d' n = text_of d n /\ (forall m, m <> n -> m <> 0 -> same_content d d' m).

Lemma nav_kind d d' n : nav_eq d d' -> kind d' n = kind d n /\ text_of d' n = text_of d n.
Proof. intros (E & _). unfold kind, text_of. rewrite E. auto. Qed.

Lemma nav_tag d d' n : RegInv d -> nav_eq d d' -> regs_ext d d' -> tag_name d' n = tag_name d n.
Proof.
  intros R (E & _) ((x & X) & _). unfold tag_name. rewrite E.
  destruct (nth_error (nodes d) n) as [[i ty pay]|] eqn:En; auto.
  destruct ty; auto. destruct pay as [t|s|]; auto.
  pose proof (ri_tags _ R n _ t En eq_refl) as Ht. rewrite X, nth_error_app1; auto.
Qed.

Lemma attrs_only_intro d d' n :
  RegInv d -> nav_eq d d' -> regs_ext d d' ->
  (forall m, m <> n -> m <> 0 -> attrs d' m = attrs d m /\ bool_attrs d' m = bool_attrs d m) ->
  attrs_only d d' n.
Proof.
  intros R Hn X H. destruct (nav_kind d d' n Hn) as [K1 K2].
  split; auto. split; auto. split; [now apply nav_tag|]. split; auto.
  intros m Hm Hm0. destruct (H m Hm Hm0) as [A1 A2]. destruct (nav_kind d d' m Hn) as [M1 M2].
  unfold same_content, content. rewrite A1, A2, M1, M2, (nav_tag d d' m R Hn X). reflexivity.
Qed.

Lemma add_property_user d k n key v :
  Good d k -> n < length (nodes d) ->
  safe False (fun d' => Good d' k /\ attrs_only d d' n /\
     attrs d' n = attrs d n ++ [(key, v)] /\ bool_attrs d' n = bool_attrs d n)
   (add_property n key v d).
Proof.
  intros G Hn. eapply safe_imp; [apply add_property_ok; [apply G|auto]|].
  intros d' (R' & Nv & X & B & e & P & Pn & Pv).
  pose proof (g_reg _ _ G) as R.
  assert (HA : forall m, attrs d' m = attrs d m ++ if n =? m then [(key, v)] else []).
  { intros m. rewrite (attrs_app d d' m [e] R X P). simpl. rewrite Pn.
    destruct (n =? m); simpl; auto. now rewrite Pv. }
  assert (HB : forall m, bool_attrs d' m = bool_attrs d m).
  { intros m. rewrite (bool_attrs_app d d' m [] R X) by (now rewrite app_nil_r).
    simpl. apply app_nil_r. }
  split; [eapply Good_nav; eauto|]. split; [|split].
  - apply attrs_only_intro; auto. intros m Hm _. split; auto. rewrite HA.
    destruct (Nat.eqb_spec n m); [congruence|apply app_nil_r].
  - rewrite HA, Nat.eqb_refl. auto.
  - apply HB.
Qed.

Lemma add_bool_property_user d k n b :
  Good d k -> n < length (nodes d) ->
  safe False (fun d' => Good d' k /\ attrs_only d d' n /\
     bool_attrs d' n = bool_attrs d n ++ [b] /\ attrs d' n = attrs d n)
   (add_bool_property n b d).
Proof.
  intros G Hn. eapply safe_imp; [apply add_bool_property_ok; [apply G|auto]|].
  intros d' (R' & Nv & X & B & e & P & Pn & Pv).
  pose proof (g_reg _ _ G) as R.
  assert (HA : forall m, bool_attrs d' m = bool_attrs d m ++ if n =? m then [b] else []).
  { intros m. rewrite (bool_attrs_app d d' m [e] R X P). simpl. rewrite Pn.
    destruct (n =? m); simpl; auto. now rewrite Pv. }
  assert (HB : forall m, attrs d' m = attrs d m).
  { intros m. rewrite (attrs_app d d' m [] R X) by (now rewrite app_nil_r).
    simpl. apply app_nil_r. }
  split; [eapply Good_nav; eauto|]. split; [|split].
  - apply attrs_only_intro; auto. intros m Hm _. split; auto. rewrite HA.
    destruct (Nat.eqb_spec n m); [congruence|apply app_nil_r].
  - rewrite HA, Nat.eqb_refl. auto.
  - apply HB.
Qed.

Lemma remove_property_user d k n key :
  Good d k -> n <> 0 ->
  exists d', remove_property n key d = Ok d' /\ Good d' k /\ attrs_only d d' n /\
     attrs d' n = remove_first (fun kv => beq key (fst kv)) (attrs d n) /\
     bool_attrs d' n = bool_attrs d n.
Proof.
  intros G Hn. pose proof (g_reg _ _ G) as R.
  destruct (reg_find _ _ key (ri_key _ R)) as (kid & E & Hl & H).
  unfold remove_property. rewrite E. cbn [bind].
  assert (Hnone : ~ In key (map fst (attrs d n)) -> Good d k /\ attrs_only d d n /\
     attrs d n = remove_first (fun kv => beq key (fst kv)) (attrs d n) /\
     bool_attrs d n = bool_attrs d n).
  { intros Hni. split; auto. split.
    - apply attrs_only_intro; auto; [apply nav_eq_refl|apply regs_ext_refl].
    - split; auto. rewrite remove_first_none; auto. intros kv Hkv. apply beq_neq.
      intros ->. apply Hni. now apply in_map. }
  pose proof (prop_split d R n Hn key kid H) as P. destruct (prop_idx n kid d) as [i|] eqn:Ei.
  2:{ destruct P as [P _]. destruct (0 <? kid); exists d; split; auto. }
  destruct P as (l1 & e & l2 & P1 & P2 & P3 & P4 & P5 & P6).
  assert (He : In e (props d)) by (rewrite P1; apply in_elt).
  destruct (ri_props _ R e He) as (_ & B1 & B2 & B3). destruct B3 as [B3 B4]; [congruence|].
  assert (Ek : p_key e = kid).
  { apply Nat.eqb_eq. apply (key_match d R n Hn key kid H e He); auto. now apply Nat.eqb_eq. }
  destruct (Nat.ltb_spec 0 kid); [|lia].
  eexists. split; [reflexivity|].
  set (d' := set_props d (upd (props d) i (mkProp 0 0 0))).
  assert (Ep : props d' = l1 ++ mkProp 0 0 0 :: l2).
  { unfold d'. simpl. rewrite P1, <- P2. apply upd_mid. }
  assert (Nv : nav_eq d d') by (repeat split).
  assert (X : regs_ext d d') by (unfold regs_ext, d'; simpl; repeat split; exists []; now rewrite app_nil_r).
  assert (Hpos : 0 < length (nodes d)).
  { destruct (Inv.inv_len _ _ (g_inv _ _ G)); lia. }
  split; [|split; [|split; auto]].
  - eapply Good_nav; eauto. destruct R. constructor; try (unfold d'; simpl; auto; fail).
    intros x. rewrite Ep. intros Hx. apply in_app_or in Hx as [Hx|[<-|Hx]].
    + apply ri_props. rewrite P1. apply in_or_app; auto.
    + simpl. unfold d'; simpl. repeat split; auto; lia.
    + apply ri_props. rewrite P1. apply in_or_app; simpl; auto.
  - apply attrs_only_intro; auto. intros m Hm Hm0. split; auto.
    unfold attrs. rewrite Ep, P1, !filter_app. cbn [filter].
    rewrite (proj2 (Nat.eqb_neq (p_node (mkProp 0 0 0)) m)), (proj2 (Nat.eqb_neq (p_node e) m)) by (cbn; congruence).
    reflexivity.
  - unfold attrs. rewrite Ep, P1, !filter_app. cbn [filter].
    rewrite (proj2 (Nat.eqb_neq (p_node (mkProp 0 0 0)) n)), (proj2 (Nat.eqb_eq (p_node e) n)) by (cbn; congruence).
    rewrite !map_app. simpl. symmetry. apply remove_first_at.
    + intros y Hy. apply beq_neq. intros ->. apply P5. now apply in_map.
    + simpl. apply beq_eq. symmetry. exact P4.
Qed.

Lemma remove_bool_property_user d k n b :
  Good d k -> n <> 0 ->
  exists d', remove_bool_property n b d = Ok d' /\ Good d' k /\ attrs_only d d' n /\
     bool_attrs d' n = remove_first (beq b) (bool_attrs d n) /\
     attrs d' n = attrs d n.
Proof.
  intros G Hn. pose proof (g_reg _ _ G) as R.
  destruct (reg_find _ _ b (ri_bool _ R)) as (bid & E & Hl & H).
  unfold remove_bool_property. rewrite E. cbn [bind].
  assert (Hnone : ~ In b (bool_attrs d n) -> Good d k /\ attrs_only d d n /\
     bool_attrs d n = remove_first (beq b) (bool_attrs d n) /\ attrs d n = attrs d n).
  { intros Hni. split; auto. split.
    - apply attrs_only_intro; auto; [apply nav_eq_refl|apply regs_ext_refl].
    - split; auto. rewrite remove_first_none; auto. intros y Hy. apply beq_neq.
      intros ->. auto. }
  pose proof (bprop_split d R n Hn b bid H) as P. destruct (bprop_idx n bid d) as [i|] eqn:Ei.
  2:{ destruct (0 <? bid); exists d; split; auto. }
  destruct P as (l1 & e & l2 & P1 & P2 & P3 & P4 & P5).
  assert (He : In e (bprops d)) by (rewrite P1; apply in_elt).
  destruct (ri_bprops _ R e He) as (_ & B1 & B3). specialize (B3 ltac:(congruence)).
  assert (Ek : snd e = bid) by (apply H; auto).
  destruct (Nat.ltb_spec 0 bid); [|lia].
  eexists. split; [reflexivity|].
  set (d' := set_bprops d (upd (bprops d) i (0, 0))).
  assert (Ep : bprops d' = l1 ++ (0, 0) :: l2).
  { unfold d'. simpl. rewrite P1, <- P2. apply upd_mid. }
  assert (Nv : nav_eq d d') by (repeat split).
  assert (X : regs_ext d d') by (unfold regs_ext, d'; simpl; repeat split; exists []; now rewrite app_nil_r).
  assert (Hpos : 0 < length (nodes d)).
  { destruct (Inv.inv_len _ _ (g_inv _ _ G)); lia. }
  split; [|split; [|split; auto]].
  - eapply Good_nav; eauto. destruct R. constructor; try (unfold d'; simpl; auto; fail).
    intros x. rewrite Ep. intros Hx. apply in_app_or in Hx as [Hx|[<-|Hx]].
    + apply ri_bprops. rewrite P1. apply in_or_app; auto.
    + simpl. unfold d'; simpl. repeat split; auto; lia.
    + apply ri_bprops. rewrite P1. apply in_or_app; simpl; auto.
  - apply attrs_only_intro; auto. intros m Hm Hm0. split; auto.
    unfold bool_attrs. rewrite Ep, P1, !filter_app. cbn [filter].
    rewrite (proj2 (Nat.eqb_neq (fst (0, 0)) m)), (proj2 (Nat.eqb_neq (fst e) m)) by (cbn; congruence).
    reflexivity.
  - unfold bool_attrs. rewrite Ep, P1, !filter_app. cbn [filter].
    rewrite (proj2 (Nat.eqb_neq (fst (0, 0)) n)), (proj2 (Nat.eqb_eq (fst e) n)) by (cbn; congruence).
    rewrite !map_app. simpl. symmetry. apply remove_first_at.
    + intros y Hy. apply beq_neq. intros ->. apply P5. exact Hy.
    + simpl. apply beq_eq. symmetry. exact P4.
Qed.

Lemma set_property_value_user d k n key v :
  Good d k -> n <> 0 ->
  safe False (fun r => let '(ok, d') := r in
     Good d' k /\ (ok = true <-> In key (map fst (attrs d n))) /\
     (ok = false -> d' = d) /\
     (ok = true -> attrs_only d d' n /\ attrs d' n = set_first key v (attrs d n) /\
        bool_attrs d' n = bool_attrs d n))
   (set_property_value n key v d).
Proof.
  intros G Hn. pose proof (g_reg _ _ G) as R.
  destruct (reg_find _ _ key (ri_key _ R)) as (kid & E & Hl & H).
  unfold set_property_value. rewrite E. cbn [bind].
  pose proof (prop_split d R n Hn key kid H) as P. destruct (prop_idx n kid d) as [i|] eqn:Ei.
  2:{ destruct P as [P _]. destruct (kid =? 0); simpl; split; auto; split; try tauto;
      try (split; [auto|discriminate]); split; try discriminate; tauto. }
  destruct P as (l1 & e & l2 & P1 & P2 & P3 & P4 & P5 & P6).
  assert (He : In e (props d)) by (rewrite P1; apply in_elt).
  destruct (ri_props _ R e He) as (B0 & B1 & B2 & B3). destruct B3 as [B3 B4]; [congruence|].
  assert (Ek : p_key e = kid).
  { apply Nat.eqb_eq. apply (key_match d R n Hn key kid H e He); auto. now apply Nat.eqb_eq. }
  destruct (Nat.eqb_spec kid 0); [congruence|].
  eapply safe_bind; [apply intern_val_ok; auto|].
  intros [vid d1] (R1 & (C1 & C2 & C3 & C4 & C5 & C6) & X1 & N1 & Z1 & K1).
  rewrite C6, P1, nth_error_app2, <- P2, Nat.sub_diag by lia. simpl nth_error. cbn iota.
  rewrite upd_mid. simpl.
  set (e' := mkProp (p_node e) (p_key e) vid).
  set (d' := set_props d1 (l1 ++ e' :: l2)).
  assert (Nv : nav_eq d d') by (repeat split; unfold d'; simpl; auto).
  assert (X : regs_ext d d') by exact X1.
  assert (Hvid : vid < length (val_reg d1)) by (apply nth_error_Some; congruence).
  assert (Hrd : forall x, In x (props d) -> rd_prop d' x = rd_prop d x).
  { intros x Hx. destruct (ri_props _ R x Hx) as (_ & ? & ? & _). now apply rd_prop_ext. }
  assert (Hmap : forall f l, (forall x, In x l -> In x (props d)) ->
     map (rd_prop d') (filter f l) = map (rd_prop d) (filter f l)).
  { intros f l Hi. apply map_ext_in. intros x Hx. apply filter_In in Hx as [Hx _]. auto. }
  assert (I1 : forall x, In x l1 -> In x (props d)) by (intros; rewrite P1; apply in_or_app; auto).
  assert (I2 : forall x, In x l2 -> In x (props d)) by (intros; rewrite P1; apply in_or_app; simpl; auto).
  split; [|split; [|split; [discriminate|]]].
  - eapply Good_nav; eauto. destruct R1. constructor; try (unfold d'; simpl; auto; fail).
    unfold d'. simpl. intros x Hx. rewrite C6, P1 in ri_props.
    apply in_app_or in Hx as [Hx|[<-|Hx]].
    + apply ri_props. apply in_or_app; auto.
    + unfold e'. simpl. rewrite C1, K1. auto.
    + apply ri_props. apply in_or_app; simpl; auto.
  - split; auto. intros _. apply in_map_iff. exists (rd_prop d e). split; auto.
    unfold attrs. apply (in_map (rd_prop d)). apply filter_In. split; auto. now apply Nat.eqb_eq.
  - intros _.
    assert (HA : forall m, attrs d' m = map (rd_prop d) (filter (fun e => p_node e =? m) l1) ++
       (if p_node e =? m then [(key, v)] else []) ++
       map (rd_prop d) (filter (fun e => p_node e =? m) l2)).
    { intros m. unfold attrs. change (props d') with (l1 ++ e' :: l2).
      change (fun e : prop => (nth (p_key e) (key_reg d') [], nth (p_val e) (val_reg d') []))
        with (rd_prop d').
      rewrite filter_app, map_app, Hmap by auto. f_equal. simpl.
      destruct (p_node e =? m); simpl; rewrite Hmap by auto; auto. f_equal.
      unfold rd_prop. simpl. rewrite K1. f_equal.
      - unfold rd_prop in P4. simpl in P4. exact P4.
      - now apply nth_error_nth. }
    assert (HA0 : forall m, attrs d m = map (rd_prop d) (filter (fun e => p_node e =? m) l1) ++
       (if p_node e =? m then [rd_prop d e] else []) ++
       map (rd_prop d) (filter (fun e => p_node e =? m) l2)).
    { intros m. unfold attrs. rewrite P1, filter_app, map_app. f_equal. simpl.
      destruct (p_node e =? m); reflexivity. }
    assert (HB : forall m, bool_attrs d' m = bool_attrs d m).
    { intros m. rewrite (bool_attrs_app d d' m [] R X).
      - simpl. apply app_nil_r.
      - unfold d'. simpl. now rewrite app_nil_r. }
    split; [|split; auto].
    + apply attrs_only_intro; auto. intros m Hm Hm0. split; auto.
      rewrite HA, HA0. rewrite (proj2 (Nat.eqb_neq (p_node e) m)) by congruence. reflexivity.
    + rewrite HA, HA0. rewrite (proj2 (Nat.eqb_eq (p_node e) n)) by congruence. simpl.
      destruct (rd_prop d e) as [k0 v0] eqn:Er. simpl in P4. subst k0.
      symmetry. apply set_first_at. auto.
Qed.

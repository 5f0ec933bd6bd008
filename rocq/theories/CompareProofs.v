(** * Proofs about the comparison. *)
From Coq Require Import List NArith Arith Bool Lia Permutation.
From Verif Require Import Base Lemmas TrieModel DomModel ParserModel DomSpec ApiSpec MsiModel CompareModel CompareSpec
  Inv RegProofs ParseTree ApiProofs ReadUser MsiProofs UsetProofs QueryRel.
Import ListNotations.
Local Open Scope nat_scope.

(** ** The sets *)
Record sfill (s : sset) (l : list bytes) : Prop := {
  sf_wf : swf s;
  sf_exp : m_exp s = 7;
  sf_len : m_len s = length (s_elems s) + empties l;
  sf_le : m_len s <= length l;
  sf_in : forall x, In x (s_elems s) <-> In x l /\ x <> [] }.

Lemma sfill_new : sfill (s_new cmp_exp) [].
Proof.
  destruct (sset_new 7) as (W & E & L); [lia|]. change cmp_exp with 7. constructor.
  - exact W.
  - reflexivity.
  - rewrite E. reflexivity.
  - apply Nat.le_0_l.
  - rewrite E. simpl. tauto.
Qed.
Lemma empties_snoc l x : empties (l ++ [x]) = empties l + match x with [] => 1 | _ => 0 end.
Proof. unfold empties. rewrite filter_app, app_length. f_equal. destruct x; reflexivity. Qed.
Lemma sfill_insert s l v : sfill s l -> length l < 64 ->
  exists s', s_insert_lim v s = Ok s' /\ sfill s' (l ++ [v]).
Proof.
  intros [W X L Le I] Hl. unfold s_insert_lim. rewrite X.
  change (2 ^ 7 / 2) with 64. destruct (Nat.leb_spec 64 (m_len s)) as [?|_]; [lia|].
  destruct v as [|c v].
  - destruct (s_insert_zero s W) as [E W']. rewrite E. cbn [bind].
    eexists. split; [reflexivity|]. constructor.
    + exact W'.
    + exact X.
    + rewrite empties_snoc. unfold s_elems, msi_elems in *. cbn [m_len m_buf]. lia.
    + rewrite app_length. cbn [m_len length]. lia.
    + intros x. unfold s_elems, msi_elems in *. cbn [m_buf]. rewrite I, in_app_iff. simpl. intuition congruence.
  - destruct (s_insert_ok s (c :: v) W ltac:(discriminate)) as (r & s' & E & W' & X' & R & T & F).
    { rewrite X. change (2 ^ 7) with 128. lia. }
    rewrite E. cbn [bind]. exists s'. split; [reflexivity|]. destruct r.
    + destruct (T eq_refl) as [P M]. constructor; auto.
      * congruence.
      * rewrite empties_snoc, M, (Permutation_length P). simpl. lia.
      * rewrite app_length, M. simpl. lia.
      * intros x. rewrite in_app_iff. split.
        -- intros H. apply (Permutation_in _ P) in H. destruct H as [<-|H]; [split; [right; now left|discriminate]|].
           apply I in H. tauto.
        -- intros [[H|[<-|[]]] N]; apply (Permutation_in _ (Permutation_sym P)); [right; apply I; auto|now left].
    + rewrite (F eq_refl) in *. constructor; auto.
      * rewrite empties_snoc. lia.
      * rewrite app_length. simpl. lia.
      * intros x. rewrite I, in_app_iff. split; [tauto|]. intros [[H|[<-|[]]] N]; [auto|].
        destruct (in_dec (list_eq_dec N.eq_dec) (c :: v) (s_elems s)) as [Hi|Hi]; [now apply I|].
        apply R in Hi. discriminate.
Qed.

Lemma set_status_ok s1 l1 s2 l2 : sfill s1 l1 -> sfill s2 l2 ->
  exists st, set_status s1 s2 = Ok st /\ (st = CSuccess <-> same_strings l1 l2).
Proof.
  intros F1 F2. destruct (s_equals_ok s1 s2 (sf_wf _ _ F1) (sf_wf _ _ F2)) as (h & E & H).
  unfold set_status. rewrite E. cbn [bind].
  assert (Q : h = HSuccess <-> same_strings l1 l2).
  { rewrite H, (sf_len _ _ F1), (sf_len _ _ F2). unfold same_strings.
    assert (D : (forall x, In x (s_elems s1) <-> In x (s_elems s2)) ->
                length (s_elems s1) = length (s_elems s2)).
    { intros K. apply Nat.le_antisymm; apply NoDup_incl_length; try (apply s_nodup; eapply sf_wf; eassumption);
        intros x; apply K. }
    split.
    - intros [A B]. split; [|specialize (D B); lia].
      intros s N. split; intros Hs.
      + apply (sf_in _ _ F2), B, (sf_in _ _ F1). auto.
      + apply (sf_in _ _ F1), B, (sf_in _ _ F2). auto.
    - intros [A B]. assert (K : forall x, In x (s_elems s1) <-> In x (s_elems s2)).
      { intros x. rewrite (sf_in _ _ F1), (sf_in _ _ F2). split; intros [K N]; (split; [apply A; auto|auto]). }
      split; [rewrite (D K); lia|exact K]. }
  destruct h; [exists CSuccess|exists CSizes|exists CContent]; (split; [reflexivity|]); rewrite <- Q; split; congruence.
Qed.

Lemma fill_bools_ok d id l : forall s acc, sfill s acc ->
  (forall e, In e l -> snd e < length (bool_reg d)) ->
  length acc + length (filter (fun e => fst e =? id) l) <= 64 ->
  exists s', fill_bools l id d s = Ok s' /\
    sfill s' (acc ++ map (fun e => nth (snd e) (bool_reg d) []) (filter (fun e => fst e =? id) l)).
Proof.
  induction l as [|e l IH]; intros s acc F R L; cbn [fill_bools filter map].
  - exists s. rewrite app_nil_r. auto.
  - cbn [filter] in L. destruct (fst e =? id) eqn:E.
    + unfold reg_at. rewrite (nth_error_nth' (bool_reg d) [] (R e (or_introl eq_refl))). cbn [bind].
      cbn [length] in L.
      destruct (sfill_insert s acc (nth (snd e) (bool_reg d) []) F ltac:(lia)) as (s' & E' & F').
      rewrite E'. cbn [bind]. destruct (IH s' _ F') as (s2 & E2 & F2).
      * intros x Hx. apply R. now right.
      * rewrite app_length. simpl. lia.
      * exists s2. split; [exact E2|]. cbn [map]. now rewrite <- app_assoc in F2.
    + apply IH; auto. intros x Hx. apply R. now right.
Qed.
Lemma fill_props_ok d id l : forall ks vs ka va, sfill ks ka -> sfill vs va ->
  (forall e, In e l -> p_key e < length (key_reg d) /\ p_val e < length (val_reg d)) ->
  length ka + length (filter (fun e => p_node e =? id) l) <= 64 ->
  length va + length (filter (fun e => p_node e =? id) l) <= 64 ->
  exists ks' vs', fill_props l id d ks vs = Ok (ks', vs') /\
    sfill ks' (ka ++ map (fun e => nth (p_key e) (key_reg d) []) (filter (fun e => p_node e =? id) l)) /\
    sfill vs' (va ++ map (fun e => nth (p_val e) (val_reg d) []) (filter (fun e => p_node e =? id) l)).
Proof.
  induction l as [|e l IH]; intros ks vs ka va F G R L M; cbn [fill_props filter map].
  - exists ks, vs. rewrite !app_nil_r. auto.
  - cbn [filter] in L, M. destruct (R e (or_introl eq_refl)) as [R1 R2].
    assert (R' : forall x, In x l -> p_key x < length (key_reg d) /\ p_val x < length (val_reg d)) by (intros; apply R; now right).
    destruct (p_node e =? id) eqn:E.
    + cbn [length] in L, M. unfold reg_at. rewrite (nth_error_nth' (key_reg d) [] R1). cbn [bind].
      destruct (sfill_insert ks ka (nth (p_key e) (key_reg d) []) F ltac:(lia)) as (ks' & E1 & F').
      rewrite E1. cbn [bind]. rewrite (nth_error_nth' (val_reg d) [] R2). cbn [bind].
      destruct (sfill_insert vs va (nth (p_val e) (val_reg d) []) G ltac:(lia)) as (vs' & E2 & G').
      rewrite E2. cbn [bind]. destruct (IH ks' vs' _ _ F' G' R') as (k2 & v2 & E3 & F2 & G2).
      * rewrite app_length. simpl. lia.
      * rewrite app_length. simpl. lia.
      * exists k2, v2. split; [exact E3|]. cbn [map]. rewrite <- app_assoc in F2, G2. auto.
    + now apply IH.
Qed.

Lemma beq_spec a b : beq a b = true <-> a = b.
Proof.
  revert b; induction a as [|x a IH]; intros [|y b]; cbn [beq]; split; try congruence; try (now intros).
  - intros H. apply andb_prop in H as [H1 H2]. apply N.eqb_eq in H1. apply IH in H2. congruence.
  - intros [= -> ->]. rewrite N.eqb_refl. now apply IH.
Qed.

(** ** Nodes *)
Section Pair.
  Context (d1 d2 : dom) (R1 : reachable d1) (R2 : reachable d2).
  Context (A1 : few_attributes d1) (A2 : few_attributes d2).

  Definition live (d : dom) (n : nat) : Prop :=
    node_id d n /\ (kind d n = Some TRoot \/ kind d n = Some TDocument \/ kind d n = Some TText).

  Lemma bools_ok n m : node_id d1 n -> node_id d2 m ->
    exists st, compare_bools n d1 m d2 = Ok st /\
      (st = CSuccess <-> same_strings (bool_attrs d1 n) (bool_attrs d2 m)).
  Proof.
    intros N M. unfold compare_bools.
    pose proof (proj1 (A1 n N)) as L1. pose proof (proj1 (A2 m M)) as L2.
    unfold bool_attrs in L1, L2. rewrite map_length in L1, L2.
    destruct (fill_bools_ok d1 n (bprops d1) (s_new cmp_exp) [] sfill_new) as (s1 & E1 & F1).
    { intros e He. apply (ri_bprops _ (u_reg d1 R1) e He). }
    { simpl. exact L1. }
    destruct (fill_bools_ok d2 m (bprops d2) (s_new cmp_exp) [] sfill_new) as (s2 & E2 & F2).
    { intros e He. apply (ri_bprops _ (u_reg d2 R2) e He). }
    { simpl. exact L2. }
    rewrite E1. cbn [bind]. rewrite E2. cbn [bind]. exact (set_status_ok _ _ _ _ F1 F2).
  Qed.
  Lemma props_ok n m : node_id d1 n -> node_id d2 m ->
    exists st, compare_props n d1 m d2 = Ok st /\
      (st = CSuccess <-> same_strings (map fst (attrs d1 n)) (map fst (attrs d2 m)) /\
                         same_strings (map snd (attrs d1 n)) (map snd (attrs d2 m))).
  Proof.
    intros N M. unfold compare_props.
    pose proof (proj2 (A1 n N)) as L1. pose proof (proj2 (A2 m M)) as L2.
    unfold attrs in *. rewrite map_length in L1, L2. rewrite !map_map. cbn [fst snd].
    destruct (fill_props_ok d1 n (props d1) (s_new cmp_exp) (s_new cmp_exp) [] [] sfill_new sfill_new)
      as (k1 & v1 & E1 & F1 & G1).
    { intros e He. destruct (ri_props _ (u_reg d1 R1) e He) as (_ & ? & ? & _). auto. }
    { simpl. exact L1. } { simpl. exact L1. }
    destruct (fill_props_ok d2 m (props d2) (s_new cmp_exp) (s_new cmp_exp) [] [] sfill_new sfill_new)
      as (k2 & v2 & E2 & F2 & G2).
    { intros e He. destruct (ri_props _ (u_reg d2 R2) e He) as (_ & ? & ? & _). auto. }
    { simpl. exact L2. } { simpl. exact L2. }
    rewrite E1. cbn [bind]. rewrite E2. cbn [bind].
    destruct (set_status_ok _ _ _ _ F1 F2) as (st & E & Q). rewrite E. cbn [bind].
    destruct (set_status_ok _ _ _ _ G1 G2) as (st' & E' & Q').
    cbn [app] in Q, Q'.
    destruct st; try (eexists; split; [reflexivity|]; rewrite <- Q, <- Q'; split; [congruence|intros [? ?]; congruence]).
    exists st'. split; [exact E'|]. rewrite <- Q, <- Q'. tauto.
  Qed.

  Lemma node_at d n : node_id d n -> exists x, nth_error (nodes d) n = Some x.
  Proof.
    intros N. destruct (nth_error (nodes d) n) eqn:E; [eauto|]. apply nth_error_None in E. unfold node_id in N. lia.
  Qed.

  (** The tests on the two nodes themselves. *)
  Definition label_status (x1 x2 : node) : outcome cstatus :=
    let* st := compare_tags x1 d1 x2 d2 in
    match st with
    | CSuccess =>
        (match n_type x1 with
         | TDocument =>
             let* st := compare_bools (n_id x1) d1 (n_id x2) d2 in
             match st with
             | CSuccess => compare_props (n_id x1) d1 (n_id x2) d2
             | _ => Ok st
             end
         | _ => Ok CSuccess
         end)
    | _ => Ok st
    end.
  Lemma label_ok n m x1 x2 : live d1 n -> live d2 m ->
    nth_error (nodes d1) n = Some x1 -> nth_error (nodes d2) m = Some x2 ->
    exists st, label_status x1 x2 = Ok st /\ (st = CSuccess <-> alike d1 n d2 m).
  Proof.
    intros [N K1] [M K2] E1 E2. unfold label_status, alike.
    destruct (reachable_good d1 R1) as [k1 G1]. destruct (reachable_good d2 R2) as [k2 G2].
    pose proof (ty_pay _ _ (g_ty _ _ G1) n x1 E1) as P1. pose proof (ty_pay _ _ (g_ty _ _ G2) m x2 E2) as P2.
    pose proof (u_ids d1 R1 n x1 E1) as I1. pose proof (u_ids d2 R2 m x2 E2) as I2.
    pose proof (ri_tags _ (u_reg d1 R1) n x1) as T1. pose proof (ri_tags _ (u_reg d2 R2) m x2) as T2.
    destruct (bools_ok n m N M) as (sb & Eb & Qb). destruct (props_ok n m N M) as (sp & Ep & Qp).
    unfold kind, text_of, tag_name, paired in *. rewrite E1, E2 in *.
    destruct x1 as [i1 t1 p1], x2 as [i2 t2 p2]. cbn [n_id n_type n_pay] in *. subst i1 i2.
    unfold pay_ok in P1, P2. cbn [n_type n_pay] in P1, P2.
    unfold compare_tags. cbn [n_type n_pay].
    destruct t1; try (exfalso; intuition congruence); destruct t2; try (exfalso; intuition congruence);
      cbn [ntype_eqb negb bind];
      try (eexists; split; [reflexivity|]; split; [congruence|intros (? & _); congruence]).
    - subst. eexists. split; [reflexivity|]. repeat split; congruence.
    - destruct P1 as (a & -> & Ha), P2 as (b & -> & Hb).
      specialize (T1 a eq_refl eq_refl). specialize (T2 b eq_refl eq_refl).
      unfold reg_of. cbn [n_pay].
      destruct (nth_error (tag_reg d1) a) as [r1|] eqn:X1; [|apply nth_error_None in X1; lia].
      destruct (nth_error (tag_reg d2) b) as [r2|] eqn:X2; [|apply nth_error_None in X2; lia].
      cbn [bind].
      destruct (Bool.eqb (t_paired r1) (t_paired r2)) eqn:Q1; cbn [negb].
      2:{ eexists. split; [reflexivity|]. split; [congruence|]. intros (_ & _ & _ & H & _).
          injection H as H. rewrite H, eqb_reflx in Q1. discriminate. }
      apply eqb_prop in Q1.
      destruct (beq (t_name r1) (t_name r2)) eqn:Q2; cbn [negb].
      2:{ eexists. split; [reflexivity|]. split; [congruence|]. intros (_ & _ & H & _).
          injection H as H. rewrite H, (proj2 (beq_spec _ _) eq_refl) in Q2. discriminate. }
      apply beq_spec in Q2. cbn [bind]. rewrite Eb. cbn [bind].
      assert (Z : forall st, (st = CSuccess <-> sb = CSuccess /\ sp = CSuccess) ->
        (st = CSuccess <->
         (Some TDocument = Some TDocument /\ @None bytes = None /\ Some (t_name r1) = Some (t_name r2) /\
          Some (t_paired r1) = Some (t_paired r2) /\
          (Some TDocument = Some TDocument ->
           same_strings (bool_attrs d1 n) (bool_attrs d2 m) /\
           same_strings (map fst (attrs d1 n)) (map fst (attrs d2 m)) /\
           same_strings (map snd (attrs d1 n)) (map snd (attrs d2 m)))))).
      { intros st ->. rewrite Qb, Qp, Q1, Q2. intuition. }
      destruct sb; try (eexists; split; [reflexivity|]; apply Z; split; [congruence|intros [? _]; congruence]).
      exists sp. split; [exact Ep|]. apply Z. tauto.
    - destruct P1 as (a & ->), P2 as (b & ->). unfold node_text. cbn [n_pay bind].
      destruct (beq a b) eqn:Q.
      + apply beq_spec in Q. subst. eexists. split; [reflexivity|]. repeat split; congruence.
      + eexists. split; [reflexivity|]. split; [congruence|]. intros (_ & H & _). injection H as ->.
        rewrite (proj2 (beq_spec _ _) eq_refl) in Q. discriminate.
  Qed.

  Lemma compare_node_eq f n m x1 x2 : nth_error (nodes d1) n = Some x1 -> nth_error (nodes d2) m = Some x2 ->
    compare_node (S f) n d1 m d2 =
    (let* st := label_status x1 x2 in
     match st with
     | CSuccess => compare_children f n m (get_first_child n d1) d1 (get_first_child m d2) d2
     | _ => Ok (st, n, m)
     end).
  Proof.
    intros E1 E2. cbn [compare_node]. unfold get_node, label_status. rewrite E1, E2. cbn [bind].
    destruct (compare_tags x1 d1 x2 d2) as [st| | |]; try reflexivity. cbn [bind].
    destruct st; reflexivity.
  Qed.

  (** Why a comparison failed: at nodes [i] and [j]. *)
  Definition differ (i j : nat) : Prop :=
    ~ alike d1 i d2 j \/
    exists l1 l2, children d1 i l1 /\ children d2 j l2 /\ length l1 <> length l2.
  Definition verdict (n m : nat) (ok : Prop) (r : cresult) : Prop :=
    match r with
    | (st, i, j) => (st = CSuccess <-> ok) /\
        (st <> CSuccess -> below_eq d1 n i /\ below_eq d2 m j /\ differ i j)
    end.

  Lemma child_live d (R : reachable d) p l c : children d p l -> In c l -> live d c.
  Proof.
    intros C I. destruct (u_children d R p) as (l' & _ & _ & U & B & _). rewrite (U l C) in I.
    destruct (B c I) as (H1 & H2 & H3). split; [unfold node_id; lia|tauto].
  Qed.
  Lemma kids_unique d (R : reachable d) p l l' : children d p l -> children d p l' -> l = l'.
  Proof.
    intros H H'. destruct (u_children d R p) as (l0 & _ & _ & U & _). rewrite (U l H), (U l' H'). reflexivity.
  Qed.

  Scheme preorder_mut := Minimality for preorder Sort Prop
    with preorders_mut := Minimality for preorders Sort Prop.

  Definition node_goal (n : nat) (w : list nat) : Prop := live d1 n -> forall m f, live d2 m -> 2 * length w <= f ->
    exists r, compare_node f n d1 m d2 = Ok r /\ verdict n m (similar d1 d2 n m) r.
  Definition list_goal (l1 w : list nat) : Prop := (forall c, In c l1 -> live d1 c) ->
    forall p q c1 c2 l2 f, sibs d1 c1 l1 -> sibs d2 c2 l2 -> (forall c, In c l2 -> live d2 c) ->
    2 * length w < f ->
    exists st i j, compare_children f p q c1 d1 c2 d2 = Ok (st, i, j) /\
      (st = CSuccess <-> similars d1 d2 l1 l2) /\
      (st <> CSuccess -> (i = p /\ j = q /\ length l1 <> length l2) \/
         exists x y, In x l1 /\ In y l2 /\ below_eq d1 x i /\ below_eq d2 y j /\ differ i j).

  Lemma compare_pre n w : preorder d1 n w -> node_goal n w.
  Proof.
    apply (preorder_mut d1 node_goal list_goal).
    - intros p cs l C _ IH Lp m f Lm F. unfold node_goal. destruct f as [|f]; [cbn [length] in F; lia|].
      destruct (node_at d1 p (proj1 Lp)) as [x1 E1]. destruct (node_at d2 m (proj1 Lm)) as [x2 E2].
      rewrite (compare_node_eq f p m x1 x2 E1 E2).
      destruct (label_ok p m x1 x2 Lp Lm E1 E2) as (st & E & Q). rewrite E. cbn [bind].
      assert (Fail : st <> CSuccess -> exists r, Ok (st, p, m) = Ok r /\ verdict p m (similar d1 d2 p m) r).
      { intros Ne. eexists. split; [reflexivity|]. split.
        - split; [congruence|]. intros S. inversion S; subst. exfalso. apply Ne, Q. assumption.
        - intros _. split; [apply below_refl|]. split; [apply below_refl|]. left. intros S. apply Ne, Q, S. }
      destruct st; try (apply Fail; discriminate). clear Fail.
      destruct (u_children d2 R2 m) as (l2 & C2 & _ & U2 & _).
      destruct (IH (fun c => child_live d1 R1 p cs c C) p m _ _ l2 f C C2
                  (fun c => child_live d2 R2 m l2 c C2)) as (st & i & j & Ec & Qc & Fc).
      { cbn [length] in F. lia. }
      rewrite Ec. eexists. split; [reflexivity|]. split.
      + rewrite Qc. split.
        * intros S. apply (sim_node d1 d2 p m cs l2); auto. now apply Q.
        * intros S. inversion S as [? ? l1' l2' _ C1' C2' Ss]; subst.
          rewrite (kids_unique d1 R1 p _ _ C1' C) in Ss. now rewrite (U2 _ C2') in Ss.
      + intros Ne. destruct (Fc Ne) as [(-> & -> & L)|(x & y & Ix & Iy & Bx & By & D)].
        * split; [apply below_refl|]. split; [apply below_refl|]. right. exists cs, l2. auto.
        * split; [eapply below_step; eauto|]. split; [eapply below_step; eauto|exact D].
    - intros _ p q c1 c2 l2 f S1 S2 L2 F. destruct f as [|f]; [lia|]. cbn [compare_children].
      inversion S1; subst. rewrite Nat.eqb_refl. cbn [negb andb].
      destruct l2 as [|y l2].
      + inversion S2; subst. cbn [Nat.eqb negb]. do 3 eexists. split; [reflexivity|].
        split; [split; [constructor|reflexivity]|congruence].
      + inversion S2; subst. destruct (Nat.eqb_spec 0 y) as [?|_]; [congruence|]. cbn [negb].
        do 3 eexists. split; [reflexivity|]. split; [split; [congruence|intros S; inversion S]|].
        intros _. left. repeat split; discriminate.
    - intros c cs l ls Hp IHc _ IHs L1 p q c1 c2 l2 f S1 S2 L2 F. destruct f as [|f]; [lia|]. cbn [compare_children].
      inversion S1; subst. destruct (Nat.eqb_spec c 0) as [?|_]; [congruence|]. cbn [negb andb].
      destruct l2 as [|y l2].
      + inversion S2; subst. cbn [Nat.eqb negb]. destruct (Nat.eqb_spec c 0) as [?|_]; [congruence|]. cbn [negb].
        do 3 eexists. split; [reflexivity|]. split; [split; [congruence|intros S; inversion S]|].
        intros _. left. repeat split; discriminate.
      + inversion S2; subst. destruct (Nat.eqb_spec y 0) as [?|_]; [congruence|]. cbn [negb].
        rewrite app_length in F.
        destruct (IHc (L1 c (or_introl eq_refl)) y f (L2 y (or_introl eq_refl)) ltac:(lia)) as ([[st i] j] & E & V & W).
        rewrite E. cbn [bind].
        assert (Fail : st <> CSuccess -> exists st' i' j', Ok (st, i, j) = Ok (st', i', j') /\
           (st' = CSuccess <-> similars d1 d2 (c :: cs) (y :: l2)) /\
           (st' <> CSuccess -> (i' = p /\ j' = q /\ length (c :: cs) <> length (y :: l2)) \/
             exists x z, In x (c :: cs) /\ In z (y :: l2) /\ below_eq d1 x i' /\ below_eq d2 z j' /\ differ i' j')).
        { intros Ne. do 3 eexists. split; [reflexivity|]. split.
          - split; [congruence|]. intros S. inversion S; subst. exfalso. apply Ne, V. assumption.
          - intros _. right. destruct (W Ne) as (W1 & W2 & W3). exists c, y. repeat split; auto; now left. }
        destruct st; try (apply Fail; discriminate). clear Fail.
        destruct l as [|z l]; [|cbn [length] in F].
        * exfalso. inversion Hp.
        * destruct (IHs (fun x H => L1 x (or_intror H)) p q _ _ l2 f ltac:(eassumption) ltac:(eassumption)
                   (fun x H => L2 x (or_intror H)) ltac:(lia)) as (st & i' & j' & E' & V' & W').
          exists st, i', j'. split; [exact E'|]. split.
          -- rewrite V'. split.
             ++ intros S. constructor; [now apply V|exact S].
             ++ intros S. now inversion S.
          -- intros Ne. destruct (W' Ne) as [(-> & -> & L)|(x & z' & Ix & Iz & H)].
             ++ left. cbn [length]. repeat split; auto.
             ++ right. exists x, z'. split; [now right|]. split; [now right|exact H].
  Qed.

  Theorem equals_exact : exists st i j, dom_equals d1 d2 = Ok (st, i, j) /\
    (st = CSuccess <-> similar d1 d2 1 1) /\
    (st <> CSuccess -> below_eq d1 1 i /\ below_eq d2 1 j /\ differ i j).
  Proof.
    destruct (u_preorder d1 R1 1 ltac:(lia)) as (w & P & ND & _ & B).
    assert (Live1 : forall d, reachable d -> live d 1).
    { intros d R. destruct (reachable_good d R) as [k G]. pose proof (inv_len _ _ (g_inv _ _ G)).
      split; [unfold node_id; lia|]. left. apply (ty_one _ _ (g_ty _ _ G)). }
    assert (LE : length (1 :: w) <= length (nodes d1)).
    { rewrite <- (seq_length (length (nodes d1)) 0). apply NoDup_incl_length; [exact ND|].
      intros y Hy. apply in_seq. apply B in Hy. destruct (below_last _ _ _ Hy) as [->|(p & l & _ & C & I)].
      - pose proof (proj1 (Live1 d1 R1)). unfold node_id in *. lia.
      - pose proof (proj1 (child_live d1 R1 p l y C I)). unfold node_id in *. lia. }
    destruct (compare_pre 1 _ P (Live1 d1 R1) 1 (2 * length (nodes d1) + 2) (Live1 d2 R2) ltac:(lia))
      as ([[st i] j] & E & V & W).
    unfold dom_equals. cbn [equals_loop]. change (negb (1 =? 0) && negb (1 =? 0)) with true. cbv iota.
    rewrite E. cbn [bind].
    destruct st; try (do 3 eexists; split; [reflexivity|]; split; [exact V|exact W]).
    rewrite (root_no_next d1 R1), (root_no_next d2 R2). cbn [Nat.eqb negb andb fst snd].
    do 3 eexists. split; [reflexivity|]. split; [exact V|congruence].
  Qed.
End Pair.

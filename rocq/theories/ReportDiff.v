(** * [flo_html_printFirstDifference]: proofs. *)
From Coq Require Import String List NArith Arith Bool Lia.
From Verif Require Import Base TrieModel DomModel ParserModel EditModel ReadModel DomSpec ApiSpec MsiModel MsiProofs
  Lemmas TrieProofs Tables Inv RegProofs ParseTree ApiProofs EditProofs EditUser ReadUser UsetProofs CompareModel CompareSpec CompareProofs
  LogModel LogSpec PrintModel ReportModel ReportSpec.
Import ListNotations.
Local Open Scope nat_scope.

Lemma written_app a b : written (a ++ b) = written a ++ written b.
Proof. unfold written. now rewrite map_app, concat_app. Qed.
Lemma written_lines l : written (map sayln l) = flat_map ln l.
Proof. induction l as [|x l IH]; [reflexivity|]. cbn [map flat_map]. rewrite <- IH. reflexivity. Qed.
Lemma written_cons o l : written (o :: l) = wop_text o ++ written l.
Proof. reflexivity. Qed.

Ltac wr := unfold written, say, sayln, ln, endl, nl; cbn [map concat wop_text newline]; rewrite ?app_nil_r; repeat rewrite <- app_assoc; try reflexivity.

Lemma sfill_listing s l : sfill s l -> listing l (s_elems s).
Proof. intros F. split; [apply s_nodup; eapply sf_wf; eauto|apply (sf_in _ _ F)]. Qed.

(** One comparison of two sets, as [s_equals] reports it. *)
Lemma s_equals_cases s1 l1 s2 l2 : sfill s1 l1 -> sfill s2 l2 ->
  exists h, s_equals s1 s2 = Ok h /\
    (h = HSuccess /\ same_strings l1 l2 \/
     ~ same_strings l1 l2 /\
       hcmp_text h = lit "Collections have different " ++
         if length (s_elems s1) + empties l1 =? length (s_elems s2) + empties l2 then lit "content" else lit "sizes").
Proof.
  intros F1 F2. destruct (set_status_ok _ _ _ _ F1 F2) as (st & E & Q).
  unfold set_status in E. rewrite <- (sf_len _ _ F1), <- (sf_len _ _ F2).
  unfold s_equals in *. destruct (m_len s1 =? m_len s2) eqn:L; cbn [negb] in *.
  - destruct (s_all_in (s_elems s1) s2) as [b| | |]; try discriminate. cbn [bind] in *. destruct b; cbn [negb] in *.
    + destruct (s_all_in (s_elems s2) s1) as [b| | |]; try discriminate. cbn [bind] in *. destruct b; cbn [negb] in *.
      * exists HSuccess. split; [reflexivity|]. left. split; [reflexivity|]. apply Q. cbn in E. congruence.
      * exists HContent. split; [reflexivity|]. right. split; [|reflexivity]. cbn in E. intros X. apply Q in X. congruence.
    + exists HContent. split; [reflexivity|]. right. split; [|reflexivity]. cbn in E. intros X. apply Q in X. congruence.
  - exists HSizes. split; [reflexivity|]. right. split; [|reflexivity]. cbn in E. intros X. apply Q in X. congruence.
Qed.

Section Diff.
  Context (d1 d2 : dom) (R1 : reachable d1) (R2 : reachable d2).
  Context (A1 : few_attributes d1) (A2 : few_attributes d2).

  Lemma report_sets_ok h what x1 s1 l1 r1 x2 s2 l2 r2 t : sfill s1 l1 -> sfill s2 l2 ->
    reg_of x1 d1 = Ok r1 -> reg_of x2 d2 = Ok r2 -> t_name r1 = t -> t_name r2 = t ->
    hcmp_text h = lit "Collections have different " ++
         (if length (s_elems s1) + empties l1 =? length (s_elems s2) + empties l2 then lit "content" else lit "sizes") ->
    exists ops, report_sets h what x1 s1 d1 x2 s2 d2 = Ok ops /\ set_report what t l1 l2 (written ops).
  Proof.
    intros F1 F2 E1 E2 T1 T2 Hh. unfold report_sets, print_attributes, tag_text. rewrite E1, E2. cbn [bind].
    eexists. split; [reflexivity|]. exists (s_elems s1), (s_elems s2).
    split; [now apply sfill_listing|]. split; [now apply sfill_listing|].
    rewrite <- Hh. rewrite T1, T2.
    rewrite !written_app, !written_lines. wr.
  Qed.

  Lemma fill_bools_node d (R : reachable d) (A : few_attributes d) n : node_id d n ->
    exists s, fill_bools (bprops d) n d (s_new cmp_exp) = Ok s /\ sfill s (bool_attrs d n).
  Proof.
    intros N. pose proof (proj1 (A n N)) as L1. unfold bool_attrs in *. rewrite map_length in L1.
    apply (fill_bools_ok d n (bprops d) (s_new cmp_exp) [] sfill_new).
    { intros e He. apply (ri_bprops _ (u_reg d R) e He). }
    { simpl. exact L1. }
  Qed.
  Lemma fill_props_node d (R : reachable d) (A : few_attributes d) n : node_id d n ->
    exists k v, fill_props (props d) n d (s_new cmp_exp) (s_new cmp_exp) = Ok (k, v) /\
      sfill k (map fst (attrs d n)) /\ sfill v (map snd (attrs d n)).
  Proof.
    intros N. pose proof (proj2 (A n N)) as L1. unfold attrs in *. rewrite map_length in L1. rewrite !map_map. cbn [fst snd].
    apply (fill_props_ok d n (props d) (s_new cmp_exp) (s_new cmp_exp) [] [] sfill_new sfill_new).
    { intros e He. destruct (ri_props _ (u_reg d R) e He) as (_ & ? & ? & _). auto. }
    { simpl. exact L1. } { simpl. exact L1. }
  Qed.

  Lemma first_difference_ok n m : node_id d1 n -> node_id d2 m ->
    exists ops, first_difference n d1 m d2 = Ok ops /\ report d1 n d2 m (written ops).
  Proof.
    intros N M.
    destruct (node_at d1 n N) as [x1 E1]. destruct (node_at d2 m M) as [x2 E2].
    destruct (reachable_good d1 R1) as [k1 G1]. destruct (reachable_good d2 R2) as [k2 G2].
    pose proof (ty_pay _ _ (g_ty _ _ G1) n x1 E1) as P1. pose proof (ty_pay _ _ (g_ty _ _ G2) m x2 E2) as P2.
    pose proof (u_ids d1 R1 n x1 E1) as I1. pose proof (u_ids d2 R2 m x2 E2) as I2.
    pose proof (ri_tags _ (u_reg d1 R1) n x1) as T1. pose proof (ri_tags _ (u_reg d2 R2) m x2) as T2.
    assert (K1 : kind d1 n = Some (n_type x1)) by (unfold kind; now rewrite E1).
    assert (K2 : kind d2 m = Some (n_type x2)) by (unfold kind; now rewrite E2).
    unfold first_difference, get_node. rewrite E1, E2. cbn [bind].
    unfold report_tags. destruct (ntype_eqb (n_type x1) (n_type x2)) eqn:Q; cbn [negb bind].
    2:{ eexists. split; [reflexivity|].
        replace (written _) with (ln (lit "Uncomparable nodes:") ++ ln (lit "node 1 type: " ++ kind_word (n_type x1)) ++
                      ln (lit "node 2 type: " ++ kind_word (n_type x2))).
        - apply rp_kinds; auto. intros X. rewrite X in Q. now destruct (n_type x2).
        - wr. }
    assert (TT : n_type x1 = n_type x2) by (destruct (n_type x1), (n_type x2); cbn in Q; congruence).
    clear Q.
    destruct x1 as [i1 t1 p1], x2 as [i2 t2 p2]. cbn [n_id n_type n_pay] in *. subst i1 i2 t2.
    unfold pay_ok in P1, P2. cbn [n_type n_pay] in P1, P2.
    destruct t1.
    - (* root *) eexists. split; [reflexivity|]. unfold written. cbn [map concat wop_text newline]. rewrite !app_nil_r. apply rp_none; [congruence|].
      unfold alike, text_of, tag_name, paired. rewrite K1, K2, E1, E2. repeat split; try congruence.
    - destruct P1 as (a & -> & Ha), P2 as (b & -> & Hb).
      specialize (T1 a E1 eq_refl). specialize (T2 b E2 eq_refl).
      unfold reg_of at 1. cbn [n_pay].
      destruct (nth_error (tag_reg d1) a) as [r1|] eqn:X1; [|apply nth_error_None in X1; lia].
      unfold reg_of at 1. cbn [n_pay bind].
      destruct (nth_error (tag_reg d2) b) as [r2|] eqn:X2; [|apply nth_error_None in X2; lia].
      cbn [bind].
      assert (El : elements d1 n d2 m (t_name r1) (t_name r2) (t_paired r1) (t_paired r2)).
      { unfold elements, tag_name, paired. rewrite E1, E2, X1, X2. auto. }
      destruct (Bool.eqb (t_paired r1) (t_paired r2)) eqn:Q1; cbn [negb].
      2:{ eexists. split; [reflexivity|].
          replace (written _) with (ln (lit "Uncomparable nodes: single node and paired node.") ++
                      ln (lit "Found single node in node " ++ (if t_paired r1 then lit "2" else lit "1") ++ lit ".") ++
                      ln (lit "node 1 tag: " ++ t_name r1) ++ ln (lit "node 2 tag: " ++ t_name r2)).
          - eapply rp_single; [exact El|]. intros X. rewrite X, eqb_reflx in Q1. discriminate.
          - destruct (t_paired r1), (t_paired r2); try discriminate; wr. }
      apply eqb_prop in Q1.
      destruct (beq (t_name r1) (t_name r2)) eqn:Q2; cbn [negb].
      2:{ eexists. split; [reflexivity|].
          replace (written _) with (ln (lit "Nodes have different tags.") ++
                      ln (lit "node 1 tag: " ++ t_name r1) ++ ln (lit "node 2 tag: " ++ t_name r1)).
          - rewrite <- Q1 in El. eapply rp_tags; [exact El|]. intros X. rewrite X, (proj2 (beq_spec _ _) eq_refl) in Q2. discriminate.
          - wr. }
      apply beq_spec in Q2. rewrite <- Q1, <- Q2 in El.
      destruct (fill_bools_node d1 R1 A1 n N) as (s1 & F1 & L1). destruct (fill_bools_node d2 R2 A2 m M) as (s2 & F2 & L2).
      destruct (fill_props_node d1 R1 A1 n N) as (k1' & v1 & F3 & L3 & L3').
      destruct (fill_props_node d2 R2 A2 m M) as (k2' & v2 & F4 & L4 & L4').
      unfold report_bools, report_props. cbn [n_id]. rewrite F1, F2, F3, F4. cbn [bind].
      assert (RS : forall h what sa la sb lb, sfill sa la -> sfill sb lb ->
         hcmp_text h = lit "Collections have different " ++
         (if length (s_elems sa) + empties la =? length (s_elems sb) + empties lb then lit "content" else lit "sizes") ->
         exists ops, report_sets h what (mkNode n TDocument (PTag a)) sa d1 (mkNode m TDocument (PTag b)) sb d2 = Ok ops /\
           set_report what (t_name r1) la lb (written ops)).
      { intros h what sa la sb lb Fa Fb Hh. apply report_sets_ok with (r1 := r1) (r2 := r2); auto;
          unfold reg_of; cbn [n_pay]; [now rewrite X1|now rewrite X2]. }
      destruct (s_equals_cases _ _ _ _ L1 L2) as (h & Eh & [[-> Sb]|[Sb Hh]]).
      2:{ destruct (RS h (lit "bool") _ _ _ _ L1 L2 Hh) as (ops & Eo & So). rewrite Eh. cbn [bind].
          assert (HN : h <> HSuccess) by (intros ->; discriminate Hh).
          exists ops. destruct h; [congruence| |]; rewrite Eo; (split; [reflexivity|]); eapply rp_bools; eauto. }
      rewrite Eh. cbn [bind].
      destruct (s_equals_cases _ _ _ _ L3 L4) as (h & Eh' & [[-> Sk]|[Sk Hh]]).
      2:{ destruct (RS h (lit "key") _ _ _ _ L3 L4 Hh) as (ops & Eo & So). rewrite Eh'. cbn [bind].
          assert (HN : h <> HSuccess) by (intros ->; discriminate Hh).
          exists ops. destruct h; [congruence| |]; rewrite Eo; (split; [reflexivity|]); eapply rp_keys; eauto. }
      rewrite Eh'. cbn [bind].
      destruct (s_equals_cases _ _ _ _ L3' L4') as (h & Eh2 & [[-> Sv]|[Sv Hh]]).
      2:{ destruct (RS h (lit "value") _ _ _ _ L3' L4' Hh) as (ops & Eo & So). rewrite Eh2. cbn [bind].
          assert (HN : h <> HSuccess) by (intros ->; discriminate Hh).
          exists ops. destruct h; [congruence| |]; rewrite Eo; (split; [reflexivity|]); eapply rp_values; eauto. }
      rewrite Eh2. cbn [bind].
      eexists. split; [reflexivity|]. unfold written. cbn [map concat wop_text newline]. rewrite !app_nil_r. apply rp_none; [congruence|].
      destruct El as (El1 & El2 & El3 & El4).
      unfold alike. rewrite K1, K2, El1, El2, El3, El4.
      split; [reflexivity|]. split; [unfold text_of; now rewrite E1, E2|]. auto.
    - destruct P1 as (a & ->), P2 as (b & ->). unfold node_text. cbn [n_pay bind].
      assert (S1 : text_of d1 n = Some a) by (unfold text_of; now rewrite E1).
      assert (S2 : text_of d2 m = Some b) by (unfold text_of; now rewrite E2).
      destruct (beq a b) eqn:Q.
      + apply beq_spec in Q. subst b. eexists. split; [reflexivity|]. unfold written. cbn [map concat wop_text newline]. rewrite !app_nil_r.
        apply rp_none; [congruence|]. unfold alike, tag_name, paired. rewrite K1, K2, S1, S2, E1, E2. repeat split; try congruence.
      + eexists. split; [reflexivity|].
        replace (written _) with (ln (lit "Different text nodes:") ++ ln (lit "node 1: " ++ a) ++ ln (lit "node 2: " ++ b)).
        * apply rp_texts; auto. intros X. rewrite X, (proj2 (beq_spec _ _) eq_refl) in Q. discriminate.
        * wr.
    - eexists. split; [reflexivity|]. apply rp_removed; auto.
    - exfalso. unfold node_id in N. destruct (Nat.eq_dec n 1) as [->|X].
      + pose proof (ty_one _ _ (g_ty _ _ G1)). congruence.
      + destruct (ty_other _ _ (g_ty _ _ G1) n _ ltac:(lia) E1) as [[Y|Y]|Y]; discriminate Y.
  Qed.
End Diff.

(** * The nodes a document had are found by the same queries as before. *)
From Coq Require Import List NArith Arith Bool Lia Permutation.
From Verif Require Import Base TrieModel DomModel ParserModel EditModel ReadModel DomSpec ApiSpec MsiModel QueryModel QuerySpec CrashSpec CrashModel
  Lemmas TrieProofs Tables Inv RegProofs ParseTree ApiProofs ReadUser MsiProofs UsetProofs QueryProofs QueryTotal QueryAny QueryAnyTotal
  Link Walk QueryRel QueryUser CrashDebris CrashRead CrashThms CrashPrint CrashSearch.
Import ListNotations.
Local Open Scope nat_scope.

Lemma map_same s m m' v : (exists l, map_ok m l) -> map_ext m m' -> map_contains s m = Ok v -> v <> 0 ->
  map_contains s m' = Ok v.
Proof.
  intros (l & H) E Q N. destruct (E l H) as (x & H'). rewrite (map_contains_ok s m l H) in Q. inversion Q; subst.
  rewrite (map_contains_ok s m' _ H'). f_equal. apply lookup_app. now apply lookup_in.
Qed.

Ltac same :=
  match goal with
  | H : bind ?x _ = Ok _ |- bind ?x _ = _ => destruct x as [?| | |] eqn:?; cbn [bind] in *; try discriminate
  end;
  repeat match goal with p : (bytes * nat)%type |- _ => destruct p end.

Section Same.
Context (lo : nat -> nat) (b d : dom) (D : debris b d) (k : kids) (G : Good b k) (C : cap b).
Notation n := (length (nodes b)).
Let SB : searchable b.
Proof. exact (good_searchable b k G C). Qed.
Let SD : searchable d.
Proof. exact (debris_searchable b d D k G C). Qed.
Let LB : n <= length (nodes d).
Proof. exact (debris_len b d D). Qed.

Lemma same_filter t i ch r : parse_filter t b i ch = Ok r -> r <> inl QNotSeen -> parse_filter t d i ch = Ok r.
Proof.
  intros H Nr. unfold parse_filter in *. same. same.
  destruct ((ch =? cDOT)%N || (ch =? cHASH)%N).
  - match goal with H : bind (map_contains ?s _) _ = _ |- _ => destruct (map_contains s (key_map b)) as [v1| | |] eqn:E1; cbn [bind] in H; try discriminate end.
    destruct (v1 =? 0) eqn:Z1; [inversion H; congruence|]. apply Nat.eqb_neq in Z1.
    rewrite (map_same _ _ _ _ (se_key b SB) (db_key _ _ D) E1 Z1). cbn [bind]. rewrite (proj2 (Nat.eqb_neq _ _) Z1).
    match goal with H : bind (map_contains ?s _) _ = _ |- _ => destruct (map_contains s (val_map b)) as [v2| | |] eqn:E2; cbn [bind] in H; try discriminate end.
    destruct (v2 =? 0) eqn:Z2; [inversion H; congruence|]. apply Nat.eqb_neq in Z2.
    rewrite (map_same _ _ _ _ (se_val b SB) (db_val _ _ D) E2 Z2). cbn [bind]. rewrite (proj2 (Nat.eqb_neq _ _) Z2). exact H.
  - destruct (current_char t _ =? cRB)%N.
    + match goal with H : bind (map_contains ?s _) _ = _ |- _ => destruct (map_contains s (bool_map b)) as [v1| | |] eqn:E1; cbn [bind] in H; try discriminate end.
      destruct (v1 =? 0) eqn:Z1; [inversion H; congruence|]. apply Nat.eqb_neq in Z1.
      rewrite (map_same _ _ _ _ (se_bool b SB) (db_bool _ _ D) E1 Z1). cbn [bind]. rewrite (proj2 (Nat.eqb_neq _ _) Z1). exact H.
    + destruct (current_char t _ =? cEQ)%N; [|exact H].
      match goal with H : bind (map_contains ?s _) _ = _ |- _ => destruct (map_contains s (key_map b)) as [v1| | |] eqn:E1; cbn [bind] in H; try discriminate end.
      destruct (v1 =? 0) eqn:Z1; [inversion H; congruence|]. apply Nat.eqb_neq in Z1.
      rewrite (map_same _ _ _ _ (se_key b SB) (db_key _ _ D) E1 Z1). cbn [bind]. rewrite (proj2 (Nat.eqb_neq _ _) Z1).
      same. same.
      match goal with H : bind (map_contains ?s _) _ = _ |- _ => destruct (map_contains s (val_map b)) as [v2| | |] eqn:E2; cbn [bind] in H; try discriminate end.
      destruct (v2 =? 0) eqn:Z2; [inversion H; congruence|]. apply Nat.eqb_neq in Z2.
      rewrite (map_same _ _ _ _ (se_val b SB) (db_val _ _ D) E2 Z2). cbn [bind]. rewrite (proj2 (Nat.eqb_neq _ _) Z2). exact H.
Qed.

Lemma same_filters t r : r <> inl QNotSeen -> forall fuel i fs,
  filters_loop fuel t b i fs = Ok r -> filters_loop fuel t d i fs = Ok r.
Proof.
  intros Nr. induction fuel as [|f IH]; intros i fs H; cbn [filters_loop] in *.
  - destruct (i <? length t); [|exact H]. same. destruct (_ || _); [discriminate|exact H].
  - destruct (i <? length t); [|exact H]. same. destruct (_ || _); [|exact H].
    destruct (max_filters <=? length fs); [exact H|].
    destruct (parse_filter t b i _) as [x| | |] eqn:E; cbn [bind] in H; try discriminate.
    assert (Nx : x <> inl QNotSeen). { intros ->. inversion H. congruence. }
    rewrite (same_filter _ _ _ _ E Nx). cbn [bind]. destruct x as [st|[[y|] j]]; auto. same. auto.
Qed.

Lemma same_head t i r : r <> inl QNotSeen -> parse_head t b i [] = Ok r -> parse_head t d i [] = Ok r.
Proof.
  intros Nr H. unfold parse_head in *. destruct (is_tag_start _); [|exact H]. destruct (max_filters <=? _); [exact H|].
  same. same.
  match goal with H : bind (map_contains ?s _) _ = _ |- _ => destruct (map_contains s (tag_map b)) as [v1| | |] eqn:E1; cbn [bind] in H; try discriminate end.
  destruct (v1 =? 0) eqn:Z1; [inversion H; congruence|]. apply Nat.eqb_neq in Z1.
  rewrite (map_same _ _ _ _ (se_tag b SB) (db_tag _ _ D) E1 Z1). cbn [bind]. rewrite (proj2 (Nat.eqb_neq _ _) Z1). exact H.
Qed.

Lemma same_fmatch x fs : x < n -> fmatch lo d x fs <-> fmatch lo b x fs.
Proof.
  intros H. assert (F1 : forall f, fm1 lo d x f <-> fm1 lo b x f).
  { intros [t| |c|a v]; cbn [fm1].
    - now rewrite (dbr_node b d D x H).
    - reflexivity.
    - destruct (db_bprops _ _ D) as (y & -> & F). rewrite Forall_forall in F. rewrite in_app_iff. split; [|auto].
      intros [I|I]; auto. apply F in I. simpl in I. lia.
    - destruct (db_props _ _ D) as (y & -> & F). rewrite Forall_forall in F. rewrite in_app_iff. split; [|auto].
      intros [I|I]; auto. apply F in I. simpl in I. lia. }
  induction fs as [|f fs IH]; [reflexivity|]. specialize (F1 f).
  destruct f; cbn [fmatch]; try reflexivity; rewrite F1, IH; reflexivity.
Qed.

Lemma same_elem x : x < n -> is_element d x <-> is_element b x.
Proof. intros H. unfold is_element, kind. now rewrite (dbr_node b d D x H). Qed.
Lemma same_kid1 m x : kid b m x -> kid d m x.
Proof.
  intros [E I]. split; [apply same_elem; auto; now apply (any_elem b SB)|].
  destruct (db_pchilds _ _ D) as (y & -> & _). apply in_or_app. auto.
Qed.
Lemma same_kid2 m x : x < n -> kid d m x -> kid b m x.
Proof.
  intros H [E I]. split; [now apply same_elem|]. destruct (dbr_new_pc b d D m x I) as [J|J]; [exact J|lia].
Qed.
Lemma kid_old m x : kid b m x -> m <> 0 -> m < n.
Proof. intros [E I] N. destruct (se_pc b SB m x I) as [A B]. specialize (B N). lia. Qed.
Lemma same_undr1 m x : undr b m x -> undr d m x.
Proof. induction 1; [apply undr_kid|eapply undr_up; [|eassumption]]; now apply same_kid1. Qed.
Lemma same_undr2 m x : undr d m x -> x < n -> undr b m x.
Proof.
  induction 1 as [m x K|m y x K U IH]; intros H.
  - apply undr_kid. now apply same_kid2.
  - specialize (IH H). eapply undr_up; [|exact IH]. apply same_kid2; auto.
    apply same_kid1 in K as K' || idtac.
    assert (Y : y <> 0) by (destruct K as [Ey _]; now apply (any_elem d SD)).
    destruct IH as [c K2|z c K2 _]; exact (kid_old _ _ K2 Y).
Qed.
Lemma undr_old m x : undr b m x -> m <> 0 -> m < n.
Proof. destruct 1 as [c K|z c K _]; intros N; exact (kid_old _ _ K N). Qed.
Lemma next_old m x : get_next m d = x -> x <> 0 -> x < n -> m < n.
Proof. intros E N H. destruct (Nat.lt_ge_cases m n) as [|Q]; auto. destruct (dbr_new_next b d D k G C m Q); lia. Qed.
Lemma same_after2 m x : after d m x -> x < n -> m < n /\ after b m x.
Proof.
  induction 1 as [x E N|p x A IH E N]; intros H.
  - assert (m < n) by (eapply next_old; eauto). split; auto. apply after_next; auto. now rewrite <- (dbr_next b d D).
  - assert (p < n) by (eapply next_old; eauto). destruct (IH H0) as [Q A']. split; auto. eapply after_step; eauto.
    now rewrite <- (dbr_next b d D).
Qed.
Lemma same_after1 m x : m <> 0 -> m < n -> after b m x -> after d m x /\ x < n.
Proof.
  intros Nm Hm. induction 1 as [x E N|p x A IH E N].
  - split; [apply after_next; auto; now rewrite (dbr_next b d D)|].
    apply (any_rel_in b SB CSibling (fun y => y = m)); [intros y ->; auto|]. exists m. split; auto. now apply after_next.
  - destruct IH as [A' Hp]. split; [eapply after_step; eauto; now rewrite (dbr_next b d D)|].
    apply (any_rel_in b SB CSibling (fun y => y = m)); [intros y ->; auto|]. exists m. split; auto. eapply after_step; eauto.
Qed.

(** [P] and [P'] hold of the same nodes of [b]. *)
Definition agree (P P' : nat -> Prop) : Prop :=
  inside b P /\ inside d P' /\ forall x, x < n -> (P' x <-> P x).
Lemma same_rel c P P' fs : agree P P' ->
  agree (fun x => fmatch lo b x fs /\ any_rel b c P x) (fun x => fmatch lo d x fs /\ any_rel d c P' x).
Proof.
  intros (I1 & I2 & A). split; [intros x [_ H]; exact (any_rel_in b SB c P I1 x H)|].
  split; [intros x [_ H]; exact (any_rel_in d SD c P' I2 x H)|]. intros x H.
  rewrite (same_fmatch x fs H). apply and_iff_compat_l. destruct c; cbn [any_rel].
  - split; lia.
  - split; intros (m & Pm & E & N).
    + assert (m < n) by (eapply next_old; eauto). exists m. split; [now apply A|]. now rewrite <- (dbr_next b d D).
    + destruct (I1 m Pm). exists m. split; [now apply A|]. now rewrite (dbr_next b d D).
  - split; intros (m & Pm & K).
    + apply same_kid2 in K; auto. exists m. split; auto. apply A; auto. eapply kid_old; eauto. now apply I2.
    + exists m. split; [|now apply same_kid1]. apply A; auto. now apply I1.
  - split; intros (m & Pm & K).
    + apply same_after2 in K as [Hm K]; auto. exists m. split; [now apply A|exact K].
    + destruct (I1 m Pm) as [Nm Hm]. exists m. split; [now apply A|]. now apply same_after1.
  - split; intros (m & Pm & K).
    + apply same_undr2 in K; auto. exists m. split; auto. apply A; auto. eapply undr_old; eauto. now apply I2.
    + exists m. split; [|now apply same_undr1]. apply A; auto. now apply I1.
Qed.

Definition two (s s' : uset) : Prop :=
  exists ph P ph' P', holds ph s P /\ holds ph' s' P' /\ agree P P'.
Lemma same_query t : forall fuel i c s s' ph P ph' P' st s1,
  holds ph s P -> holds ph' s' P' -> agree P P' ->
  (c = CNone -> ph = 0 /\ forall x, ~ P x) -> (c = CNone -> ph' = 0 /\ forall x, ~ P' x) ->
  st <> QNotSeen -> query_loop fuel lo t b i c s = Ok (st, s1) ->
  exists s1', query_loop fuel lo t d i c s' = Ok (st, s1') /\ two s1 s1'.
Proof.
  induction fuel as [|f IH]; intros i c s s' ph P ph' P' st s1 H H' A N1 N2 Ns E; cbn [query_loop] in *.
  - destruct (i <? length t); [discriminate|]. inversion E; subst. exists s'. split; auto. exists ph, P, ph', P'. auto.
  - assert (Out : two s s') by (exists ph, P, ph', P'; auto).
    destruct (i <? length t); [|inversion E; subst; exists s'; split; auto].
    destruct (parse_head t b i []) as [r| | |] eqn:E1; cbn [bind] in E; try discriminate.
    assert (Nr : r <> inl QNotSeen). { intros ->. inversion E. congruence. }
    rewrite (same_head t i r Nr E1). cbn [bind]. destruct r as [st0|[fs j]]; [inversion E; subst; eauto|].
    destruct (filters_loop _ t b j fs) as [r| | |] eqn:E2; cbn [bind] in E; try discriminate.
    assert (Nr2 : r <> inl QNotSeen). { intros ->. inversion E. congruence. }
    rewrite (same_filters t r Nr2 _ _ _ E2). cbn [bind]. destruct r as [st0|[fs' j']]; [inversion E; subst; eauto|].
    destruct fs' as [|x fs0] eqn:Ef; [inversion E; subst; eauto|]. rewrite <- Ef in *.
    destruct (any_step lo b SB c fs' ph s P H N1) as (t1 & q1 & F1 & H1).
    destruct (any_step lo d SD c fs' ph' s' P' H' N2) as (t2 & q2 & F2 & H2).
    rewrite F1 in E. rewrite F2. cbn [bind] in *.
    destruct (comb_loop (length t) t j' CDescendant) as [[c' i']| | |] eqn:E3; cbn [bind] in *; try discriminate.
    assert (Nc : c' <> CNone).
    { clear -E3. assert (Z : CDescendant <> CNone) by discriminate. revert j' E3 Z. generalize CDescendant as c0. generalize (length t) as g.
      induction g as [|g IHg]; intros c0 j E Z; cbn [comb_loop] in E; (destruct (j <? length t); [|inversion E; subst; auto]);
        destruct (get_char t j) as [ch| | |]; cbn [bind] in E; try discriminate; (destruct (_ || _); [inversion E; subst; auto|]); [discriminate|].
      apply IHg in E; auto. destruct (ch =? cGT)%N; [discriminate|]. destruct (ch =? cPLUS)%N; [discriminate|].
      destruct (ch =? cTILDE)%N; [discriminate|auto]. }
    eapply (IH i' c' t1 t2); [exact H1|exact H2|now apply same_rel|congruence|congruence|exact Ns|exact E].
Qed.

Lemma agree_none : agree (fun _ => False) (fun _ => False).
Proof. split; [intros ? []|]. split; [intros ? []|reflexivity]. Qed.

Lemma same_parts css : forall fuel from s s' r r' P P' st r1,
  holds 0 s (fun _ => False) -> holds 0 s' (fun _ => False) -> holds 0 r P -> holds 0 r' P' -> agree P P' ->
  st <> QNotSeen -> parts_loop fuel lo css b from s r = Ok (st, r1) ->
  exists r1' Q Q', parts_loop fuel lo css d from s' r' = Ok (st, r1') /\ holds 0 r1 Q /\ holds 0 r1' Q' /\ agree Q Q'.
Proof.
  induction fuel as [|f IH]; intros from s s' r r' P P' st r1 Hs Hs' Hr Hr' A Ns E; cbn [parts_loop] in *;
    (destruct (from <? length css); [|inversion E; subst; exists r', P, P'; auto]); [discriminate|].
  destruct (scan css _ from) as [j| | |]; cbn [bind] in *; try discriminate.
  destruct (read_slice css from (j - from)) as [it| | |]; cbn [bind] in *; try discriminate.
  destruct (query_results lo it b s) as [[st0 s0]| | |] eqn:E1; cbn [bind] in E; try discriminate.
  assert (N0 : st0 <> QNotSeen). { intros ->. inversion E. congruence. }
  assert (Q : exists s0', query_results lo it d s' = Ok (st0, s0') /\ two s0 s0').
  { unfold query_results in *. destruct (scan it _ 0) as [i0| | |]; cbn [bind] in *; try discriminate.
    eapply same_query; [exact Hs|exact Hs'|exact agree_none|auto|auto|exact N0|exact E1]. }
  destruct Q as (s0' & -> & (ph & P1 & ph' & P1' & H1 & H1' & A1)). cbn [bind].
  destruct st0; try (inversion E; subst; exists r', P, P'; auto; fail).
  destruct (insert_each_ok lo b (se_cap b SB) (u_elems s0) 0 r P Hr) as (r2 & p2 & F & L2 & H2).
  { intros x Hx. apply (proj1 A1). now apply (proj2 H1). }
  destruct (insert_each_ok lo d (se_cap d SD) (u_elems s0') 0 r' P' Hr') as (r2' & p2' & F' & L2' & H2').
  { intros x Hx. apply (proj1 (proj2 A1)). now apply (proj2 H1'). }
  rewrite F in E. rewrite F'. cbn [bind] in *. assert (p2 = 0) by lia. assert (p2' = 0) by lia. subst p2 p2'.
  eapply IH; [eapply holds_reset; exact H1|eapply holds_reset; exact H1'|exact H2|exact H2'| |exact Ns|exact E].
  destruct A as (I1 & I2 & A). destruct A1 as (J1 & J2 & A1). split; [|split].
  - intros x [Hx|Hx]; auto. apply J1. now apply (proj2 H1).
  - intros x [Hx|Hx]; auto. apply J2. now apply (proj2 H1').
  - intros x Hx. rewrite (A x Hx), (proj2 H1 x), (proj2 H1' x), (A1 x Hx). reflexivity.
Qed.

Lemma same_all css st l : query_selector_all lo css b = Ok (st, l) -> st <> QNotSeen ->
  exists l', query_selector_all lo css d = Ok (st, l') /\ forall x, x < n -> (In x l' <-> In x l).
Proof.
  unfold query_selector_all. intros E Ns.
  destruct (parts_loop (S (length css)) lo css b 0 (u_new start_exp) (u_new start_exp)) as [[st0 r]| | |] eqn:E1; cbn [bind] in E; try discriminate.
  assert (N0 : st0 <> QNotSeen). { intros ->. inversion E. congruence. }
  destruct (same_parts css (S (length css)) 0 (u_new start_exp) (u_new start_exp) (u_new start_exp) (u_new start_exp) (fun _ => False) (fun _ => False) st0 r) as (r' & Q & Q' & -> & H & H' & A); auto;
    try (apply holds_new; unfold start_exp; lia); try exact agree_none.
  cbn [bind]. destruct st0; try (inversion E; subst; eexists; split; [reflexivity|reflexivity]).
  rewrite (u_array_ok r 0 (proj1 H)) in E. rewrite (u_array_ok r' 0 (proj1 H')). cbn [bind repeat] in *. rewrite app_nil_r in *.
  inversion E; subst. eexists. split; [reflexivity|]. intros x Hx. rewrite (proj2 H x), (proj2 H' x). now apply A.
Qed.
End Same.

Lemma debris_query d d' lo css st l : reachable d -> debris d d' ->
  query_selector_all lo css d = Ok (st, l) -> st <> QNotSeen ->
  exists l', query_selector_all lo css d' = Ok (st, l') /\ forall x, node_id d x -> (In x l' <-> In x l).
Proof.
  intros R D E N. destruct (reachable_good d R) as [k G]. pose proof (proj1 (u_limits d R)) as C.
  destruct (same_all lo d d' D k G C css st l E N) as (l' & E' & Q). exists l'. split; auto. intros x H. apply Q, H.
Qed.

Lemma find_ext (f g : nat -> bool) w : (forall x, In x w -> f x = g x) -> find f w = find g w.
Proof.
  induction w as [|x w IH]; intros H; simpl; auto. rewrite (H x (or_introl eq_refl)), IH; auto. intros y Hy. apply H. simpl; auto.
Qed.
Lemma find_none (f : nat -> bool) w : (forall x, In x w -> f x = false) -> find f w = None.
Proof. induction w as [|x w IH]; intros H; simpl; auto. rewrite (H x (or_introl eq_refl)). apply IH. intros y Hy. apply H. simpl; auto. Qed.

Lemma debris_first d bl o d' lo css st r : reachable d -> valid d bl o -> left_with bl o d d' -> debris d d' ->
  query_selector lo css d = Ok (st, r) -> st <> QNotSeen ->
  exists r', query_selector lo css d' = Ok (st, r') /\ (r' = r \/ r = Some 0 /\ r' = None).
Proof.
  intros R V L D E Ns. destruct (reachable_good d R) as [k G]. pose proof (g_inv _ _ G) as Iv.
  pose proof (traverse_dom_tree d k Iv) as W0. pose proof (walk_small d k G _ W0) as Ls.
  set (w := pres (length (nodes d)) k (k (Par 1))) in *.
  destruct (query_selector_all lo css d) as [[st0 l]| | |] eqn:Ea; unfold query_selector in E; rewrite Ea in E; cbn [bind] in E; try discriminate.
  assert (N0 : st0 <> QNotSeen). { intros ->. inversion E. congruence. }
  destruct (debris_query d d' lo css st0 l R D Ea N0) as (l' & Ea' & Q).
  destruct (abandoned_query_one d bl o d' lo css R V L) as (w' & st1 & l1 & W & E1 & E2). rewrite Ea' in E1. inversion E1; subst st1 l1.
  pose proof (proj1 (dbr_walk d d' D k G w') W) as Wd.
  pose proof (dom_walk_fun d 1 w' _ Wd W0) as ->.
  assert (Old : forall x, In x (1 :: w) -> node_id d x).
  { assert (P : pre (length (nodes d)) k 1 = 1 :: w) by (apply pre_eq; apply Iv). intros x I. rewrite <- P in I.
    destruct (pre_parent _ _ _ _ (inv_kw _ _ Iv) I) as [->|(q & Iq & _)].
    - pose proof (inv_len _ _ Iv). unfold node_id. lia.
    - apply (kw_bound _ _ (inv_kw _ _ Iv)) in Iq. unfold node_id. lia. }
  assert (Mem : forall (m : list nat) x, existsb (Nat.eqb x) m = true <-> In x m).
  { intros m x. rewrite existsb_exists. split; [intros (y & Hy & Z); apply Nat.eqb_eq in Z; now subst|].
    intros Hx. exists x. split; auto. apply Nat.eqb_refl. }
  assert (Same : find (fun x => existsb (Nat.eqb x) l') (1 :: w) = find (fun x => existsb (Nat.eqb x) l) (1 :: w)).
  { apply find_ext. intros x I. specialize (Q x (Old x I)).
    destruct (existsb (Nat.eqb x) l') eqn:A, (existsb (Nat.eqb x) l) eqn:B; auto.
    - apply Mem in A. apply Q, Mem in A. congruence.
    - apply Mem in B. apply Q, Mem in B. congruence. }
  destruct st0; try (inversion E; subst; eexists; split; [exact E2|auto]; fail).
  destruct l as [|x l].
  - inversion E; subst. destruct l' as [|y l']; [eexists; split; [exact E2|auto]|].
    eexists. split; [exact E2|]. right. split; auto. rewrite Same. apply find_none. reflexivity.
  - rewrite (select_any d (x :: l) 1 w W0) in E by lia. cbn [bind] in E. inversion E; subst.
    destruct l' as [|y l'].
    + exfalso. destruct (uq_total d R lo css) as (st2 & l2 & E3 & _ & _ & B). rewrite Ea in E3. inversion E3; subst.
      assert (I : In x (x :: l)) by (simpl; auto). apply (Q x (B x I)) in I. destruct I.
    + eexists. split; [exact E2|]. left. exact Same.
Qed.

Lemma one_step_query d bl o d' lo css st l : reachable d -> valid d bl o -> left_with bl o d d' -> one_step o ->
  query_selector_all lo css d = Ok (st, l) -> st <> QNotSeen ->
  exists l', query_selector_all lo css d' = Ok (st, l') /\ forall x, node_id d x -> (In x l' <-> In x l).
Proof.
  intros R V L O. destruct (reachable_good d R) as [k G]. apply debris_query; auto. now apply (one_step_debris d k bl o).
Qed.
Lemma one_step_first d bl o d' lo css st r : reachable d -> valid d bl o -> left_with bl o d d' -> one_step o ->
  query_selector lo css d = Ok (st, r) -> st <> QNotSeen ->
  exists r', query_selector lo css d' = Ok (st, r') /\ (r' = r \/ r = Some 0 /\ r' = None).
Proof.
  intros R V L O. destruct (reachable_good d R) as [k G]. apply (debris_first d bl o d'); auto. now apply (one_step_debris d k bl o).
Qed.

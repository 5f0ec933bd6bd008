(** * What an abandoned call leaves can be searched. *)
From Coq Require Import List NArith Arith Bool Lia.
From Verif Require Import Base TrieModel DomModel ParserModel EditModel ReadModel DomSpec ApiSpec Lemmas TrieProofs
  Tables Inv Surgery Attach Replace Link RegProofs ParseSafe ParseTree ParseLoop Walk AttrProofs EditProofs EditOps EditHtml EditUser
  ApiProofs ReadUser MsiModel QueryModel QuerySpec QueryProofs QueryRel QueryTotal QueryAny QueryAnyTotal
  CrashSpec CrashModel CrashAgree CrashDebris CrashWalk CrashRead CrashLink CrashOps CrashFacts CrashUser CrashThms.
Import ListNotations.
Local Open Scope nat_scope.

Notation cap d := (N.of_nat (length (nodes d)) <= 65535)%N.

Lemma reg_map reg m : reg_ok reg m -> exists l, map_ok m l.
Proof. intros (l & _ & H). eauto. Qed.

Lemma next_in d k : Good d k -> forall m, m <> 0 ->
  exists l, sibs d (get_next m d) l /\ length l <= length (nodes d) /\
    (forall x, In x l -> exists q, In x (k q)) /\ forall x, In x l -> x <> 0 /\ x < length (nodes d).
Proof.
  intros G m M. pose proof (g_inv _ _ G) as V. pose proof (inv_kw _ _ V) as W. destruct (next_idx m d) as [i|] eqn:E.
  - pose proof E as E'. unfold next_idx in E'. apply find_idx_some in E' as ([a b] & Hi & Ha & _).
    simpl in Ha. apply Nat.eqb_eq in Ha. subst a.
    destruct (inv_next _ _ V) as (T1 & _).
    destruct (T1 m b (nth_error_In _ _ Hi)) as [[? _]|[q A]]; [congruence|].
    apply adj_split in A as (l1 & l2 & Eq).
    assert (Eg : get_next m d = b) by (rewrite (get_next_at V q l1 m (b :: l2) Eq); reflexivity).
    rewrite Eg. exists (b :: l2).
    assert (Sub : forall x, In x (b :: l2) -> In x (k q)).
    { intros x Hx. rewrite Eq. apply in_or_app. right. now right. }
    split; [|split; [|split]].
    + assert (X : sibs d (hd 0 (b :: l2)) (b :: l2)).
      { apply (sibs_at d k q (l1 ++ [m])); [exact V|]. rewrite Eq, <- app_assoc. reflexivity. }
      exact X.
    + assert (ND : NoDup (b :: l2)).
      { pose proof (kw_nodup _ _ W q) as ND. rewrite Eq in ND.
        change (m :: b :: l2) with ([m] ++ b :: l2) in ND. rewrite app_assoc in ND. now apply nodup_tail in ND. }
      rewrite <- (seq_length (length (nodes d)) 0). apply NoDup_incl_length; [exact ND|].
      intros x Hx. apply in_seq. apply Sub in Hx. apply (kw_bound _ _ W) in Hx. lia.
    + eauto.
    + intros x Hx. apply Sub in Hx. apply (kw_bound _ _ W) in Hx. lia.
  - exists []. unfold get_next. rewrite E. split; [constructor|]. simpl. split; [lia|]. split; contradiction.
Qed.

Lemma good_searchable d k : Good d k -> cap d -> searchable d.
Proof.
  intros G L. pose proof (g_inv _ _ G) as V. pose proof (g_reg _ _ G) as R. pose proof (inv_len _ _ V) as L2. constructor; auto.
  - lia.
  - exact (inv_ids _ _ V).
  - unfold is_element. rewrite (ty_zero _ _ (g_ty _ _ G)). discriminate.
  - intros p c I. destruct (pc_nz _ _ _ (inv_pchild _ _ V) p c I) as [[-> ->]|H]; lia.
  - intros m M. destruct (next_in d k G m M) as (l & A & B & _ & C). eauto.
  - eapply reg_map, (ri_tag _ R).
  - eapply reg_map, (ri_bool _ R).
  - eapply reg_map, (ri_key _ R).
  - eapply reg_map, (ri_val _ R).
Qed.

Lemma ext_map m m' : map_ext m m' -> (exists l, map_ok m l) -> exists l, map_ok m' l.
Proof. intros E (l & H). destruct (E l H) as (x & Hx). eauto. Qed.

Section Debris.
Context (b d : dom) (D : debris b d) (k : kids) (G : Good b k) (C : cap b).
Notation n := (length (nodes b)).
Let V := g_inv _ _ G.

(** The nodes made by the call have only later ones after them. *)
Lemma dbr_new_next m : n <= m -> get_next m d = 0 \/ (m < get_next m d /\ get_next m d < length (nodes d)).
Proof.
  intros H. rewrite next_lk. destruct (db_nexts _ _ D) as (x & -> & F). rewrite Forall_forall in F. rewrite lk_app.
  destruct (existsb (fun e => fst e =? m) (nexts b)) eqn:E.
  - exfalso. apply existsb_exists in E as ([a c] & I & Q). simpl in Q. apply Nat.eqb_eq in Q. subst a.
    pose proof (inv_len _ _ V). destruct (inv_next _ _ V) as (T1 & _).
    destruct (T1 m c I) as [[? _]|[q A]]; [lia|]. apply adj_split in A as (l1 & l2 & Eq).
    assert (J : In m (k q)) by (rewrite Eq; apply in_elt). apply (kw_bound _ _ (inv_kw _ _ V)) in J. lia.
  - unfold lk. destruct (find_idx (fun e => fst e =? m) x) as [i|] eqn:Q; auto. right.
    apply find_idx_some in Q as ([a c] & Hi & Ha & _). simpl in Ha. apply Nat.eqb_eq in Ha. subst a.
    rewrite (at_idx_nth _ _ _ Hi). simpl. apply nth_error_In in Hi. apply F in Hi. unfold late in Hi. simpl in Hi. lia.
Qed.
Lemma dbr_new_pc p c : In (p, c) (pchilds d) -> In (p, c) (pchilds b) \/ (n <= p /\ p < c /\ c < length (nodes d)).
Proof.
  destruct (db_pchilds _ _ D) as (x & -> & F). rewrite Forall_forall in F. intros I. apply in_app_or in I as [I|I]; auto.
  apply F in I. unfold late in I. simpl in I. auto.
Qed.
Lemma dbr_chain : forall h m, length (nodes d) - m <= h -> n <= m ->
  exists l, sibs d (get_next m d) l /\ length l <= h /\ forall x, In x l -> m < x /\ x < length (nodes d).
Proof.
  induction h as [|h IH]; intros m L H; destruct (dbr_new_next m H) as [E|E].
  - exists []. rewrite E. split; [constructor|]. split; [simpl; lia|intros ? []].
  - lia.
  - exists []. rewrite E. split; [constructor|]. split; [simpl; lia|intros ? []].
  - destruct (IH (get_next m d)) as (l & S & Ll & B); [lia|lia|]. exists (get_next m d :: l).
    split; [constructor; auto; lia|]. split; [simpl; lia|]. intros x [<-|I]; [lia|]. specialize (B x I). lia.
Qed.

Lemma debris_searchable : searchable d.
Proof.
  pose proof (inv_len _ _ V) as L2. pose proof (debris_len b d D) as Ld. pose proof (g_reg _ _ G) as R. constructor.
  - now apply (db_cap _ _ D).
  - lia.
  - apply (db_ids _ _ D). exact (inv_ids _ _ V).
  - unfold is_element, kind. rewrite (dbr_node b d D 0) by lia. pose proof (ty_zero _ _ (g_ty _ _ G)) as Z. unfold kind in Z.
    rewrite Z. discriminate.
  - intros p c I. apply dbr_new_pc in I as [I|I]; [|lia].
    destruct (pc_nz _ _ _ (inv_pchild _ _ V) p c I) as [[-> ->]|H]; lia.
  - intros m M. destruct (Nat.lt_ge_cases m n) as [Lm|Gm].
    + destruct (next_in b k G m M) as (l & A & B & _ & Bd). exists l. split; [|split; [lia|]].
      * rewrite (dbr_next b d D m Lm). apply (sibs_in b); auto. intros x I. apply (dbr_next b d D). now apply Bd.
      * intros x I. specialize (Bd x I). lia.
    + destruct (dbr_chain (length (nodes d) - m) m ltac:(lia) Gm) as (l & A & B & Bd). exists l.
      split; auto. split; [lia|]. intros x I. specialize (Bd x I). lia.
  - eapply ext_map; [apply (db_tag _ _ D)|eapply reg_map, (ri_tag _ R)].
  - eapply ext_map; [apply (db_bool _ _ D)|eapply reg_map, (ri_bool _ R)].
  - eapply ext_map; [apply (db_key _ _ D)|eapply reg_map, (ri_key _ R)].
  - eapply ext_map; [apply (db_val _ _ D)|eapply reg_map, (ri_val _ R)].
Qed.
End Debris.

Lemma nodup_apart (l1 l2 : list nat) : NoDup (l1 ++ l2) -> forall x, In x l1 -> ~ In x l2.
Proof.
  induction l1 as [|y l1 IH]; [easy|]. intros ND. inversion ND as [|? ? Q1 Q2]; subst.
  intros x [<-|I1] I2; [apply Q1; apply in_or_app; auto|]. exact (IH Q2 x I1 I2).
Qed.

Section Links.
Context (M : Prop) (d : dom) (k : kids) (G : Good d k) (p : nat) (A N Z gone : list nat) (e d' : dom)
  (H : links M d k p A N Z gone e d') (C : cap d).

Lemma links_searchable : searchable d'.
Proof.
  destruct (li_mid _ _ _ _ _ _ _ _ _ _ H) as (dm & km & Md & Sd).
  destruct (li_end _ _ _ _ _ _ _ _ _ _ H) as (ke & Ge & Kp & _ & Kg).
  pose proof (li_size _ _ _ _ _ _ _ _ _ _ H) as Sz. pose proof (li_lnk _ _ _ _ _ _ _ _ _ _ H) as Ln.
  pose proof (good_searchable dm km (md_good _ _ _ _ _ _ Md) (md_cap _ _ _ _ _ _ Md C)) as Sm.
  pose proof (data_nodes _ _ Sd) as En. pose proof (g_inv _ _ Ge) as Ve. pose proof (inv_len _ _ Ve) as L2.
  pose proof (inv_kw _ _ Ve) as We.
  assert (Mp : tag_map d' = tag_map dm /\ bool_map d' = bool_map dm /\ key_map d' = key_map dm /\ val_map d' = val_map dm).
  { clear -Sd. unfold same_data in Sd. rewrite Sd. destruct dm; simpl; auto. }
  destruct Mp as (M1 & M2 & M3 & M4).
  assert (IH : forall x, In x (ke (Par p)) -> ~ In x gone) by (intros x I; eapply Kg; eauto).
  assert (Bound : forall q x, In x (ke q) -> x <> 0 /\ x < length (nodes d')).
  { intros q x I. apply (kw_bound _ _ We) in I. lia. }
  constructor.
  - rewrite En. apply (se_cap _ Sm).
  - lia.
  - unfold ids_ok. rewrite En. exact (se_ids _ Sm).
  - intros E. apply (se_zero _ Sm). unfold is_element, kind in *. now rewrite <- En.
  - intros a c I. apply (ln_pch _ _ _ _ Ln) in I. rewrite Sz.
    destruct (pc_nz _ _ _ (inv_pchild _ _ Ve) a c I) as [[-> ->]|Q]; lia.
  - intros m Nm. destruct (in_dec Nat.eq_dec m gone) as [Ig|Ng].
    + exists Z. rewrite (li_gone _ _ _ _ _ _ _ _ _ _ H m Ig).
      assert (Sub : forall x, In x Z -> In x (ke (Par p))).
      { intros x I. rewrite Kp. apply in_or_app. right. apply in_or_app. auto. }
      split; [|split].
      * apply (sibs_in e).
        -- apply (sibs_at e ke (Par p) (A ++ N)); auto. now rewrite <- app_assoc.
        -- intros x I. destruct (ln_next _ _ _ _ Ln x (IH x (Sub x I))) as [[-> _]|(El & _)]; auto. exfalso.
           destruct (li_new _ _ _ _ _ _ _ _ _ _ H) as [NN _].
           assert (In x N) by (subst x; rewrite (app_removelast_last 0 NN) at 2; apply in_or_app; simpl; auto).
           pose proof (kw_nodup _ _ We (Par p)) as ND. rewrite Kp in ND. apply nodup_tail in ND.
           exact (nodup_apart N Z ND x H0 I).
      * rewrite <- (seq_length (length (nodes d')) 0). apply NoDup_incl_length.
        -- pose proof (kw_nodup _ _ We (Par p)) as ND. rewrite Kp in ND. apply nodup_tail in ND. now apply nodup_tail in ND.
        -- intros x I. apply in_seq. apply Sub, Bound in I. lia.
      * intros x I. eapply Bound, Sub. exact I.
    + destruct (ln_next _ _ _ _ Ln m Ng) as [[-> _]|(_ & -> & _)].
      2:{ exists []. split; [constructor|]. simpl. split; [lia|intros ? []]. }
      destruct (next_in e ke Ge m Nm) as (l & Sl & Ll & Kl & Bl).
      destruct (cut_sibs M d k p A N Z gone e d' H l _ Sl) as [S2|(m1 & m2 & El & S2)].
      { intros x I. destruct (Kl x I) as (q & Iq). eapply Kg; eauto. }
      * exists l. rewrite Sz. auto.
      * eexists. split; [exact S2|]. rewrite Sz. subst l. split.
        -- rewrite app_length in Ll |- *. simpl in *. lia.
        -- intros x I. apply Bl. apply in_app_or in I as [I|[<-|[]]]; apply in_or_app; simpl; auto.
  - rewrite M1. apply (se_tag _ Sm).
  - rewrite M2. apply (se_bool _ Sm).
  - rewrite M3. apply (se_key _ Sm).
  - rewrite M4. apply (se_val _ Sm).
Qed.
End Links.

Lemma abandoned_searchable d bl o d' : reachable d -> valid d bl o -> left_with bl o d d' -> searchable d'.
Proof.
  intros R V L. destruct (reachable_good d R) as [k G]. pose proof (proj1 (u_limits d R)) as C.
  destruct (crash_main d k bl o d' G V L) as (b & kb & p & _ & Gb & Lb & [[[D|(km & Md & _)] _]|(e & A & N & Z & gone & _ & _ & _ & _ & H)]);
    rewrite <- Lb in C.
  - eapply debris_searchable; eauto.
  - eapply good_searchable; [apply (md_good _ _ _ _ _ _ Md)|now apply (md_cap _ _ _ _ _ _ Md)].
  - eapply links_searchable; eauto.
Qed.

Lemma abandoned_query d bl o d' lo css : reachable d -> valid d bl o -> left_with bl o d d' ->
  exists st l, query_selector_all lo css d' = Ok (st, l) /\ NoDup l /\ (st <> QSuccess -> l = []) /\
    forall n, In n l -> 1 <= n < length (nodes d').
Proof.
  intros R V L. destruct (any_total lo d' (abandoned_searchable d bl o d' R V L) css) as ([st l] & E & ND & Zs & B).
  exists st, l. repeat split; auto; apply B in H; lia.
Qed.

Lemma walk_small d k : Good d k -> forall w, dom_walk d 1 w -> length w < length (nodes d).
Proof.
  intros G w W. pose proof (g_inv _ _ G) as V.
  rewrite (dom_walk_fun d 1 w _ W (traverse_dom_tree d k V)).
  assert (P : pre (length (nodes d)) k 1 = 1 :: pres (length (nodes d)) k (k (Par 1))) by (apply pre_eq; apply V).
  assert (Q : length (pre (length (nodes d)) k 1) <= length (nodes d)).
  { apply (Nat.le_trans _ (length (seq 0 (length (nodes d))))); [|rewrite seq_length; lia].
    apply NoDup_incl_length; [apply pre_nodup; apply V|]. intros y I. apply in_seq.
    destruct (pre_parent _ _ _ _ (inv_kw _ _ V) I) as [->|(q & Iq & _)].
    - pose proof (inv_len _ _ V). lia.
    - apply (kw_bound _ _ (inv_kw _ _ V)) in Iq. lia. }
  rewrite P in Q. simpl in Q. lia.
Qed.
Lemma abandoned_walk d bl o d' : reachable d -> valid d bl o -> left_with bl o d d' ->
  exists w, dom_walk d' 1 w /\ length w < length (nodes d').
Proof.
  intros R V L. destruct (reachable_good d R) as [k G].
  destruct (crash_main d k bl o d' G V L) as (b & kb & p & _ & Gb & Lb & [[P _]|(e & A & N & Z & gone & _ & _ & _ & _ & H)]).
  - destruct (pst_facts b kb _ _ d' Gb P) as (Le & _ & _ & Wk).
    pose proof (traverse_dom_tree b kb (g_inv _ _ Gb)) as W. pose proof (walk_small b kb Gb _ W).
    eexists. split; [apply Wk; exact W|lia].
  - destruct (lk_walk _ _ _ _ _ _ _ _ _ _ H) as (u & u' & W & W' & (r & E)).
    destruct (li_end _ _ _ _ _ _ _ _ _ _ H) as (ke & Ge & _). pose proof (walk_small e ke Ge u W) as Q.
    exists u'. split; [exact W'|]. rewrite (li_size _ _ _ _ _ _ _ _ _ _ H). subst u. rewrite app_length in Q. lia.
Qed.
Lemma select_any d l c w : dom_walk d c w -> c <> 0 -> forall fuel, length w < fuel ->
  select_loop fuel l c d = Ok (find (fun x => existsb (Nat.eqb x) l) (c :: w)).
Proof.
  induction 1 as [c E|c n w E N W IH]; intros Nc fuel L; (destruct fuel as [|f]; [lia|]); cbn [select_loop find].
  - replace (c =? 0) with false by (symmetry; now apply Nat.eqb_neq).
    destruct (existsb (Nat.eqb c) l); [reflexivity|]. rewrite E. cbn [bind]. destruct f; reflexivity.
  - replace (c =? 0) with false by (symmetry; now apply Nat.eqb_neq).
    destruct (existsb (Nat.eqb c) l); [reflexivity|]. rewrite E. cbn [bind]. simpl in L. apply IH; [exact N|lia].
Qed.
(** querySelector: 0 if there is no match; else the first match of the walk,
    and the C code leaves its result variable alone if the walk meets none. *)
Lemma abandoned_query_one d bl o d' lo css : reachable d -> valid d bl o -> left_with bl o d d' ->
  exists w st l, dom_walk d' 1 w /\ query_selector_all lo css d' = Ok (st, l) /\
   query_selector lo css d' = Ok (st, match st, l with
     | QSuccess, [] => Some 0
     | QSuccess, _ => find (fun x => existsb (Nat.eqb x) l) (1 :: w)
     | _, _ => None end).
Proof.
  intros R V L. destruct (abandoned_walk d bl o d' R V L) as (w & W & B).
  destruct (abandoned_query d bl o d' lo css R V L) as (st & l & E & _). exists w, st, l. split; [exact W|]. split; [exact E|].
  unfold query_selector. rewrite E. cbn [bind]. destruct st; auto. destruct l as [|x l]; auto.
  rewrite (select_any d' (x :: l) 1 w W); auto.
Qed.

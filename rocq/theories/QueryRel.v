(** * Query relations and the tree; [querySelector]. *)
From Coq Require Import List NArith Arith Bool Lia Permutation.
From Verif Require Import Base TrieModel DomModel ParserModel EditModel ReadModel DomSpec ApiSpec MsiModel QueryModel QuerySpec
  Lemmas TrieProofs Tables Inv Attach RegProofs ParseTree MsiProofs UsetProofs QueryProofs AttrProofs
  QueryTotal QueryParse QueryUser ApiProofs ReadUser.
Import ListNotations.
Local Open Scope nat_scope.

Lemma below_trans d a b c : below_eq d a b -> below_eq d b c -> below_eq d a c.
Proof. induction 1; intros H'; [exact H'|]. eapply below_step; eauto. Qed.
Lemma below_last d r x : below_eq d r x -> x = r \/ exists p l, below_eq d r p /\ children d p l /\ In x l.
Proof.
  induction 1 as [n|n c l x C I B IH]; [now left|]. right. destruct IH as [->|(p & l' & Bp & Cp & Ip)].
  - exists n, l. split; [apply below_refl|]. auto.
  - exists p, l'. split; [|auto]. eapply below_step; eauto.
Qed.
Lemma sibs_suffix d m l2 l1 : forall c, sibs d c (l1 ++ m :: l2) -> sibs d (get_next m d) l2.
Proof.
  induction l1 as [|a l1 IH]; intros c H; simpl in H; inversion H; subst; [assumption|]. eauto.
Qed.
Lemma elem_below_snoc d m p n l : elem_below d m p -> children d p l -> In n l -> is_element d n -> elem_below d m n.
Proof.
  induction 1 as [m p l0 C I E|m c p l0 C I E B IH]; intros Cp In0 En.
  - eapply eb_step; [exact C|exact I|exact E|]. eapply eb_child; eauto.
  - eapply eb_step; eauto.
Qed.

Section Rel.
  Context (d : dom) (R : reachable d).

  Lemma child_parent p l c : children d p l -> In c l -> get_parent c d = p.
  Proof. intros C I. apply in_split in I as (l1 & l2 & ->). now apply (u_nav d R p l1 c l2). Qed.
  Lemma in_tree_parent n : below_eq d 1 n -> n <> 1 ->
    exists l, children d (get_parent n d) l /\ In n l /\ below_eq d 1 (get_parent n d).
  Proof.
    intros B N. destruct (below_last _ _ _ B) as [->|(p & l & Bp & C & I)]; [congruence|].
    exists l. rewrite (child_parent p l n C I). auto.
  Qed.
  Lemma elem_not_root n : is_element d n -> n <> 1.
  Proof.
    intros E ->. destruct (reachable_good d R) as [k G]. unfold is_element in E.
    rewrite (ty_one _ _ (g_ty _ _ G)) in E. discriminate.
  Qed.

  Lemma rel_child m n : below_eq d 1 n -> (related d Child m n <-> tree_related d Child m n).
  Proof.
    intros B. cbn [related tree_related]. split.
    - intros [E <-]. destruct (in_tree_parent n B (elem_not_root n E)) as (l & C & I & _). eauto.
    - intros (l & C & I & E). split; [exact E|]. eapply child_parent; eauto.
  Qed.
  Lemma rel_desc m n : below_eq d 1 n -> (related d Descendant m n <-> tree_related d Descendant m n).
  Proof.
    intros B. cbn [related tree_related]. split.
    - intros U. revert B. induction U as [n E P|p n U IH E P]; intros B.
      + destruct (in_tree_parent n B (elem_not_root n E)) as (l & C & I & _). rewrite P in C. eapply eb_child; eauto.
      + destruct (in_tree_parent n B (elem_not_root n E)) as (l & C & I & Bp). rewrite P in C, Bp.
        eapply elem_below_snoc; eauto.
    - intros H. clear B. induction H as [m n l C I E|m c n l C I E H IH].
      + apply under_child; [exact E|]. eapply child_parent; eauto.
      + apply (proj2 (under_split d m n)). right. exists c. split; [exact E|].
        split; [eapply child_parent; eauto|exact IH].
  Qed.
  Lemma in_tree_split m : below_eq d 1 m -> m <> 1 -> exists p l1 l2, children d p (l1 ++ m :: l2).
  Proof.
    intros B N. destruct (in_tree_parent m B N) as (l & C & I & _).
    apply in_split in I as (l1 & l2 & ->). eauto.
  Qed.
  Lemma children_nz p l c : children d p l -> In c l -> c <> 0.
  Proof.
    intros C I. destruct (u_children d R p) as (l' & _ & _ & U & Bd & _). rewrite (U l C) in I.
    specialize (Bd c I). lia.
  Qed.
  Lemma root_no_next : get_next 1 d = 0.
  Proof.
    destruct (reachable_good d R) as [k G]. unfold get_next. destruct (next_idx 1 d) as [i|] eqn:E; [|reflexivity].
    pose proof E as E'. unfold next_idx in E'. apply find_idx_some in E' as ([a b] & Hi & Ha & _).
    simpl in Ha. apply Nat.eqb_eq in Ha. subst a. rewrite (at_idx_nth _ _ _ Hi). simpl.
    destruct (inv_next _ _ (g_inv _ _ G)) as (T1 & _).
    destruct (T1 1 b (nth_error_In _ _ Hi)) as [[? _]|[q A]]; [congruence|].
    apply adj_split in A as (l1 & l2 & Eq). exfalso.
    pose proof (kw_bound _ _ (inv_kw _ _ (g_inv _ _ G)) q 1) as H. rewrite Eq in H.
    specialize (H ltac:(apply in_or_app; right; now left)). lia.
  Qed.
  Lemma rel_next m n : below_eq d 1 m -> (related d NextSib m n <-> tree_related d NextSib m n).
  Proof.
    intros B. cbn [related tree_related]. split.
    - intros [E N]. destruct (Nat.eq_dec m 1) as [->|M]; [rewrite root_no_next in E; congruence|].
      destruct (in_tree_split m B M) as (p & l1 & l2 & C).
      destruct (u_nav d R p l1 m l2 C) as (_ & Nx & _). rewrite Nx in E.
      destruct l2 as [|c l2]; simpl in E; [congruence|]. subst c. eauto.
    - intros (p & l1 & l2 & C). destruct (u_nav d R p l1 m (n :: l2) C) as (_ & Nx & _).
      split; [exact Nx|]. eapply children_nz; [exact C|]. apply in_or_app. right. right. now left.
  Qed.
  Lemma rel_later m n : below_eq d 1 m -> (related d LaterSib m n <-> tree_related d LaterSib m n).
  Proof.
    intros B. cbn [related tree_related]. split.
    - intros A. destruct (Nat.eq_dec m 1) as [->|M].
      + exfalso. pose proof root_no_next as Z.
        assert (S : sibs d (get_next 1 d) []) by (rewrite Z; constructor).
        now apply (after_in_chain d 1 [] S) in A.
      + destruct (in_tree_split m B M) as (p & l1 & l2 & C). exists p, l1, l2. split; [exact C|].
        now apply (after_in_chain d m l2 (sibs_suffix d m l2 l1 _ C)).
    - intros (p & l1 & l2 & C & I). now apply (after_in_chain d m l2 (sibs_suffix d m l2 l1 _ C)).
  Qed.
  Lemma tree_rel_in r m n : below_eq d 1 m -> tree_related d r m n -> below_eq d 1 n.
  Proof.
    intros B H. destruct r; cbn [tree_related] in H.
    - destruct H as (l & C & I & _). eapply below_trans; [exact B|]. eapply below_step; [exact C|exact I|apply below_refl].
    - eapply below_trans; [exact B|]. clear B. induction H as [m n l C I E|m c n l C I E H IH].
      + eapply below_step; [exact C|exact I|apply below_refl].
      + eapply below_step; eauto.
    - destruct H as (p & l1 & l2 & C).
      assert (Im : In m (l1 ++ m :: n :: l2)) by (apply in_or_app; right; now left).
      assert (In0 : In n (l1 ++ m :: n :: l2)) by (apply in_or_app; right; right; now left).
      destruct (below_last _ _ _ B) as [->|(p' & l' & Bp & C' & I')].
      + destruct (u_children d R p) as (l' & _ & _ & U & Bd & _). rewrite (U _ C) in Im. specialize (Bd 1 Im). lia.
      + assert (p = p') by (rewrite <- (child_parent p _ m C Im); exact (child_parent p' l' m C' I')). subst p'.
        eapply below_trans; [exact Bp|]. eapply below_step; [exact C|exact In0|apply below_refl].
    - destruct H as (p & l1 & l2 & C & I2).
      assert (Im : In m (l1 ++ m :: l2)) by (apply in_or_app; right; now left).
      assert (In0 : In n (l1 ++ m :: l2)) by (apply in_or_app; right; right; exact I2).
      destruct (below_last _ _ _ B) as [->|(p' & l' & Bp & C' & I')].
      + destruct (u_children d R p) as (l' & _ & _ & U & Bd & _). rewrite (U _ C) in Im. specialize (Bd 1 Im). lia.
      + assert (p = p') by (rewrite <- (child_parent p _ m C Im); exact (child_parent p' l' m C' I')). subst p'.
        eapply below_trans; [exact Bp|]. eapply below_step; [exact C|exact In0|apply below_refl].
  Qed.

  (** ** Tags of nodes in the tree *)
  Lemma seen_in_tree lo n name : no_collision lo d -> below_eq d 1 n ->
    (seen_tag lo d n name <-> tag_name d n = Some name).
  Proof.
    intros NC B. destruct (reachable_good d R) as [k G].
    assert (K : kind d n = Some TDocument \/ kind d n = Some TText \/ kind d n = Some TRoot).
    { destruct (below_last _ _ _ B) as [->|(p & l & _ & C & I)]; [rewrite (ty_one _ _ (g_ty _ _ G)); auto|].
      destruct (u_children d R p) as (l' & _ & _ & U & Bd & _). rewrite (U l C) in I.
      destruct (Bd n I) as (_ & _ & [|]); auto. }
    unfold seen_tag, tag_name, kind in *. destruct (nth_error (nodes d) n) as [x|] eqn:Ex.
    2:{ split; [intros (y & t & E & _); discriminate|discriminate]. }
    pose proof (ty_pay _ _ (g_ty _ _ G) n x Ex) as P. unfold pay_ok in P.
    pose proof (fun s (H : n_type x = TText) (H' : n_pay x = PText s) => NC n s) as NC'.
    unfold text_of in NC'. rewrite Ex in NC'. destruct x as [i ty pay]; simpl in *.
    split.
    - intros (y & t & E & Hp & Nt & Hn). injection E as <-. simpl in Hp.
      destruct K as [K|[K|K]]; injection K as ->.
      + destruct P as (t0 & P & _). destruct Hp as [Hp|[(s & Hp) _]]; [|congruence].
        rewrite Hp in P. injection P as <-. rewrite Hp.
        rewrite nth_error_map in Hn. destruct (nth_error (tag_reg d) t); [|discriminate]. exact Hn.
      + destruct P as (s & P). destruct Hp as [Hp|[_ ->]]; [congruence|]. exfalso. subst pay.
        destruct (NC' s eq_refl eq_refl eq_refl) as [Z|Z]; [congruence|].
        assert (L : lo n < length (map t_name (tag_reg d))) by (apply nth_error_Some; congruence).
        rewrite map_length in L. lia.
      + exfalso. destruct Hp as [Hp|[(s & Hp) _]]; congruence.
    - intros H. destruct K as [K|[K|K]]; injection K as ->; try discriminate.
      destruct P as (t & -> & Nt). destruct (nth_error (tag_reg d) t) as [r|] eqn:Er; [|discriminate].
      injection H as <-. eexists _, t. split; [reflexivity|]. simpl. split; [now left|]. split; [exact Nt|].
      rewrite nth_error_map, Er. reflexivity.
  Qed.

  Lemma matches_css lo n c : no_collision lo d -> below_eq d 1 n -> (matches lo d n c <-> css_matches d n c).
  Proof.
    intros NC B. unfold matches, css_matches.
    assert (X : forall s, matches1 lo d n s <-> css_matches1 d n s).
    { intros [t|b|a v]; cbn [matches1 css_matches1]; try reflexivity. now apply seen_in_tree. }
    split; intros H s Hs; apply X, H, Hs.
  Qed.
  Lemma rel_css r m n : below_eq d 1 m -> below_eq d 1 n -> (related d r m n <-> tree_related d r m n).
  Proof.
    intros Bm Bn. destruct r; [now apply rel_child|now apply rel_desc|now apply rel_next|now apply rel_later].
  Qed.
  (** If every node is in the tree the two meanings agree. *)
  Lemma select_css lo l : no_collision lo d -> (forall n, 1 <= n < length (nodes d) -> below_eq d 1 n) ->
    forall S S' : nat -> Prop, (forall n, S n <-> S' n) -> (forall n, S n -> below_eq d 1 n) ->
    forall n, select lo d S l n <-> css_select d S' l n.
  Proof.
    intros NC All. induction l as [|[r c] l IH]; intros S S' E IS n; cbn [select css_select]; [apply E|].
    assert (In_r : forall m n, S m -> related d r m n -> below_eq d 1 n).
    { intros m x Sm H. destruct r; cbn [related] in H.
      - destruct H as [El _]. apply All. destruct (reachable_good d R) as [k G].
        destruct (elem_nz d k G x El). lia.
      - destruct (reachable_good d R) as [k G]. apply All. destruct H as [x El _|p x _ El _];
          destruct (elem_nz d k G x El); lia.
      - eapply tree_rel_in; [exact (IS m Sm)|]. apply (rel_next m x (IS m Sm)). exact H.
      - eapply tree_rel_in; [exact (IS m Sm)|]. apply (rel_later m x (IS m Sm)). exact H. }
    apply IH.
    - intros x. split.
      + intros [M (m & Sm & Rm)]. pose proof (In_r m x Sm Rm) as Bx. split; [now apply (matches_css lo)|].
        exists m. split; [now apply E|]. now apply rel_css; auto.
      + intros [M (m & Sm & Rm)]. apply E in Sm. pose proof (tree_rel_in r m x (IS m Sm) Rm) as Bx.
        split; [now apply (matches_css lo)|]. exists m. split; [exact Sm|]. now apply rel_css; auto.
    - intros x [_ (m & Sm & Rm)]. eauto.
  Qed.

  (** ** Results *)
  Let LN : (N.of_nat (length (nodes d)) <= 65535)%N := proj1 (u_limits d R).
  Lemma uq_total lo css : exists st r, query_selector_all lo css d = Ok (st, r) /\ NoDup r /\
    (st <> QSuccess -> r = []) /\ forall n, In n r -> node_id d n.
  Proof.
    destruct (reachable_good d R) as [k G].
    destruct (good_all lo d k G LN css) as ([st r] & E & ND & Z & B). exists st, r.
    split; [exact E|]. split; [exact ND|]. split; [exact Z|]. intros n Hn. destruct (B n Hn). unfold node_id. lia.
  Qed.
  Lemma uq_query lo l css : list_str l css -> (forall x, In x l -> known d x /\ small x) ->
    exists r, query_selector_all lo css d = Ok (QSuccess, r) /\ NoDup r /\
      forall n, In n r <-> exists x, In x l /\ selects lo d x n.
  Proof. destruct (reachable_good d R) as [k G]. apply (k_query lo d k G LN). Qed.
  Lemma uq_unknown lo l css : list_str l css -> (forall x, In x l -> small x) ->
    (exists x c s, In x l /\ In c (compounds x) /\ In s c /\ ~ known1 d s) ->
    query_selector_all lo css d = Ok (QNotSeen, []).
  Proof. destruct (reachable_good d R) as [k G]. apply (k_unknown lo d k G LN). Qed.
  Lemma uq_many lo l css : list_str l css -> (forall x, In x l -> known d x) ->
    (exists x, In x l /\ ~ small x) -> query_selector_all lo css d = Ok (QTooMany, []).
  Proof. destruct (reachable_good d R) as [k G]. apply (k_many lo d k G LN). Qed.

  (** ** querySelector *)
  Lemma select_walk l c w : dom_walk d c w -> c <> 0 -> forall fuel, length w < fuel ->
    select_loop fuel l c d = Ok (find (fun x => existsb (Nat.eqb x) l) (c :: w)).
  Proof.
    induction 1 as [c E|c n w E N W IH]; intros Nc fuel L; (destruct fuel as [|f]; [lia|]); cbn [select_loop find].
    - replace (c =? 0) with false by (symmetry; now apply Nat.eqb_neq).
      destruct (existsb (Nat.eqb c) l); [reflexivity|]. rewrite E. cbn [bind]. destruct f; reflexivity.
    - replace (c =? 0) with false by (symmetry; now apply Nat.eqb_neq).
      destruct (existsb (Nat.eqb c) l); [reflexivity|]. rewrite E. cbn [bind]. simpl in L. apply IH; [exact N|lia].
  Qed.
  Lemma find_first (l : list nat) w : (exists a n b, w = a ++ n :: b /\ In n l /\ (forall x, In x a -> ~ In x l) /\
        find (fun x => existsb (Nat.eqb x) l) w = Some n) \/
     ((forall x, In x w -> ~ In x l) /\ find (fun x => existsb (Nat.eqb x) l) w = None).
  Proof.
    induction w as [|c w IH]; [right; split; [intros ? []|reflexivity]|]. cbn [find].
    destruct (existsb (Nat.eqb c) l) eqn:E.
    - left. exists [], c, w. split; [reflexivity|]. split; [|split; [intros ? []|reflexivity]].
      apply existsb_exists in E as (y & Hy & Q). apply Nat.eqb_eq in Q. now subst.
    - assert (Nc : ~ In c l).
      { intros H. assert (X : existsb (Nat.eqb c) l = true) by (apply existsb_exists; exists c; split; [exact H|apply Nat.eqb_refl]). congruence. }
      destruct IH as [(a & n & b & -> & I & F & Q)|[F Q]].
      + left. exists (c :: a), n, b. split; [reflexivity|]. split; [exact I|]. split; [|exact Q].
        intros x [<-|Hx]; auto.
      + right. split; [|exact Q]. intros x [<-|Hx]; auto.
  Qed.
  Lemma uq_first lo css r w : query_selector_all lo css d = Ok (QSuccess, r) -> preorder d 1 w ->
    match r with
    | [] => query_selector lo css d = Ok (QSuccess, Some 0)
    | _ => (exists a n b, w = a ++ n :: b /\ In n r /\ (forall x, In x a -> ~ In x r) /\
              query_selector lo css d = Ok (QSuccess, Some n)) \/
           ((forall x, In x w -> ~ In x r) /\ query_selector lo css d = Ok (QSuccess, None))
    end.
  Proof.
    intros E P. unfold query_selector. rewrite E. cbn [bind]. destruct r as [|x0 r0] eqn:Er; [reflexivity|].
    rewrite <- Er in *. clear Er.
    destruct (u_preorder d R 1 ltac:(lia)) as (w' & P' & ND & U & B). pose proof (U w P) as ->.
    rewrite (select_walk r 1 w' (u_traverse_dom d R w' P')); [|lia|].
    - cbn [bind]. destruct (find_first r (1 :: w')) as [(a & n & b & -> & I & F & Q)|[F Q]].
      + left. exists a, n, b. rewrite Q. auto.
      + right. rewrite Q. auto.
    - assert (L : length (1 :: w') <= length (nodes d)).
      { rewrite <- (seq_length (length (nodes d)) 0). apply NoDup_incl_length; [exact ND|].
        intros y Hy. apply in_seq. apply B in Hy. destruct (below_last _ _ _ Hy) as [->|(p & l & _ & C & I)].
        - destruct (reachable_good d R) as [k G]. pose proof (inv_len _ _ (g_inv _ _ G)). lia.
        - destruct (u_children d R p) as (l' & _ & _ & Uc & Bd & _). rewrite (Uc l C) in I.
          specialize (Bd y I). lia. }
      simpl in L. lia.
  Qed.

  (** ** "*" *)
  Lemma uq_star lo : exists r, query_selector_all lo [cSTAR] d = Ok (QSuccess, r) /\ NoDup r /\
    forall n, In n r <-> node_id d n.
  Proof.
    destruct (reachable_good d R) as [k G].
    destruct (q_step_ok lo d k G LN CNone [FAll] 0 (u_new start_exp) (fun _ => False) (new_holds d LN) ltac:(auto))
      as (s1 & p1 & E1 & H1).
    destruct (insert_each_ok lo d LN (u_elems s1) 0 (u_new start_exp) (fun _ => False) (new_holds d LN)) as (r1 & q1 & E2 & L2 & H2).
    { intros x Hx. apply (proj2 H1) in Hx as [_ Hx]. cbn [comb_rel] in Hx. lia. }
    assert (q1 = 0) by lia. subst q1.
    exists (u_elems r1). split.
    - assert (Q : query_results lo [cSTAR] d (u_new start_exp) = Ok (QSuccess, s1)).
      { unfold query_results. change (scan [cSTAR] _ 0) with (@Ok nat 0). cbn [bind].
        cbn [query_loop length]. change (0 <? 1) with true. cbv iota.
        change (parse_head [cSTAR] d 0 []) with (@Ok (qstatus + (list filt * nat)) (inr ([FAll], 1))). cbn [bind].
        change (filters_loop 2 [cSTAR] d 1 [FAll]) with (@Ok (qstatus + (list filt * nat)) (inr ([FAll], 1))). cbn [bind].
        rewrite E1. cbn [bind]. change (comb_loop 1 [cSTAR] 1 CDescendant) with (@Ok (comb * nat) (CDescendant, 1)).
        cbn [bind]. reflexivity. }
      unfold query_selector_all. cbn [parts_loop length]. change (0 <? 1) with true. cbv iota.
      change (scan [cSTAR] _ 0) with (@Ok nat 1). cbn [bind].
      change (read_slice [cSTAR] 0 (1 - 0)) with (@Ok bytes [cSTAR]). cbn [bind].
      rewrite Q. cbn [bind]. rewrite E2. cbn [bind parts_loop].
      change (0 + length [cSTAR] + 1 <? 1) with false. cbn [bind].
      rewrite (u_array_ok r1 0 (proj1 H2)). cbn [bind repeat]. now rewrite app_nil_r.
    - split; [apply u_nodup, (uo_wf _ _ (proj1 H2))|]. intros n. rewrite (proj2 H2 n), (proj2 H1 n).
      cbn [fmatch comb_rel]. unfold node_id. tauto.
  Qed.
End Rel.

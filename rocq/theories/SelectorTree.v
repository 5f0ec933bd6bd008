(** * Queries and the tree: restricted to the nodes in the tree, a query is a
    matter of the tree alone. *)
From Coq Require Import List NArith Arith Bool Lia.
From Verif Require Import Base TrieModel DomModel ParserModel EditModel ReadModel DomSpec ApiSpec MsiModel QueryModel QuerySpec
  SelectorSpec TreeSpec Lemmas TrieProofs Tables Inv Attach RegProofs ParseTree MsiProofs UsetProofs QueryProofs QueryTotal QueryParse
  QueryUser ApiProofs ReadUser EditUser QueryRel SelectorRead SelectorUser TreeUser TreeLawsUser.
Import ListNotations.
Local Open Scope nat_scope.

Section T.
  Context (d : dom) (R : reachable d).

  Lemma next_in_tree m n : get_next m d = n -> n <> 0 -> below_eq d 1 n -> below_eq d 1 m.
  Proof.
    intros E N B. destruct (reachable_good d R) as [k G]. pose proof (inv_kw _ _ (g_inv _ _ G)) as W.
    unfold get_next in E. destruct (next_idx m d) as [i|] eqn:Ei; [|congruence].
    unfold next_idx in Ei. apply find_idx_some in Ei as ([a b] & Hi & Ha & _).
    simpl in Ha. apply Nat.eqb_eq in Ha. subst a. rewrite (at_idx_nth _ _ _ Hi) in E. simpl in E. subst b.
    destruct (inv_next _ _ (g_inv _ _ G)) as (T1 & _).
    destruct (T1 m n (nth_error_In _ _ Hi)) as [[_ Z]|[q A]]; [congruence|].
    apply adj_split in A as (l1 & l2 & Eq).
    assert (Im : In m (k q)) by (rewrite Eq; apply in_or_app; right; now left).
    assert (In0 : In n (k q)) by (rewrite Eq; apply in_or_app; right; right; now left).
    destruct (below_last _ _ _ B) as [->|(p & l & Bp & C & I)].
    - pose proof (kw_bound _ _ W _ _ In0). lia.
    - assert (l = k (Par p)) by (apply (kc _ k) in C; auto). subst l.
      pose proof (kw_disj _ _ W _ _ _ In0 I) as X. subst q.
      eapply below_trans; [exact Bp|]. eapply below_step; [exact C|exact Im|apply below_refl].
  Qed.
  Lemma after_in_tree m n : after d m n -> below_eq d 1 n -> below_eq d 1 m.
  Proof.
    induction 1 as [n E N|p n A IH E N]; intros B; [eapply next_in_tree; eauto|].
    apply IH. eapply next_in_tree; eauto.
  Qed.
  Lemma under_in_tree m n : under d m n -> below_eq d 1 n -> below_eq d 1 m.
  Proof.
    induction 1 as [n E P|p n U IH E P]; intros B;
      destruct (in_tree_parent d R n B (elem_not_root d R n E)) as (l & C & I & Bp); rewrite P in Bp; auto.
  Qed.
  Lemma related_in_tree r m n : related d r m n -> below_eq d 1 n -> below_eq d 1 m.
  Proof.
    intros H B. destruct r; cbn [related] in H.
    - apply (under_in_tree m n); [destruct H; now constructor|exact B].
    - eapply under_in_tree; eauto.
    - destruct H. eapply next_in_tree; eauto.
    - eapply after_in_tree; eauto.
  Qed.
  Lemma meets_tree lo n cs : no_collision lo d -> below_eq d 1 n -> (meets lo d n cs <-> tree_meets d n cs).
  Proof.
    intros NC B. induction cs as [|[x|] cs IH]; cbn [meets tree_meets]; [tauto| |tauto].
    pose proof (matches_css d R lo n [x] NC B) as M. unfold matches, css_matches in M.
    rewrite IH. split; intros [H1 H2]; (split; [|exact H2]).
    - apply M; [|now left]. intros s [<-|[]]. exact H1.
    - apply M; [|now left]. intros s [<-|[]]. exact H1.
  Qed.
  Lemma in_tree_id n : below_eq d 1 n -> node_id d n.
  Proof.
    intros B. unfold node_id. destruct (below_last _ _ _ B) as [->|(p & l & _ & C & I)].
    - destruct (reachable_good d R) as [k G]. pose proof (inv_len _ _ (g_inv _ _ G)). lia.
    - destruct (u_children d R p) as (l' & _ & _ & U & Bd & _). rewrite (U l C) in I. specialize (Bd n I). lia.
  Qed.
  Lemma fold_tree lo l : no_collision lo d -> forall S S' : nat -> Prop,
    (forall n, below_eq d 1 n -> (S n <-> S' n)) -> (forall n, S' n -> below_eq d 1 n) ->
    (forall n, below_eq d 1 n -> (fold_left (pick lo d) l S n <-> fold_left (tree_pick d) l S' n)) /\
    (forall n, fold_left (tree_pick d) l S' n -> below_eq d 1 n).
  Proof.
    intros NC. induction l as [|[r cs] l IH]; intros S S' E I; cbn [fold_left]; [auto|].
    apply IH.
    - intros n B. unfold pick, tree_pick. cbn [fst snd]. rewrite (meets_tree lo n cs NC B).
      destruct r as [r|].
      + split; intros [M (m & Sm & Rm)]; (split; [exact M|]); exists m.
        * pose proof (related_in_tree r m n Rm B) as Bm. split; [now apply E|]. now apply rel_css.
        * pose proof (I m Sm) as Bm. split; [now apply E|]. now apply rel_css.
      + pose proof (in_tree_id n B). tauto.
    - intros n [_ H]. cbn [fst] in H. destruct r as [r|]; [|exact H].
      destruct H as (m & Sm & Rm). eapply tree_rel_in; eauto.
  Qed.
  Lemma picks_tree lo l n : no_collision lo d -> below_eq d 1 n -> (picks lo d l n <-> tree_picks d l n).
  Proof.
    intros NC B. apply (fold_tree lo l NC (fun _ => False) (fun _ => False)); [tauto|intros ? []|exact B].
  Qed.
  Lemma tree_picks_in l n : tree_picks d l n -> below_eq d 1 n.
  Proof.
    pose proof (fold_tree (fun _ => 0) l) as F. unfold tree_picks.
    assert (NC : no_collision (fun _ => 0) d) by (intros ? ? _; now left).
    apply (F NC (fun _ => False) (fun _ => False)); [tauto|intros ? []].
  Qed.
  Lemma chosen_in css n : chosen d css n -> below_eq d 1 n.
  Proof. intros (p & _ & H). eapply tree_picks_in; eauto. Qed.

  Lemma q_chosen lo css : no_collision lo d -> accepted_css d css ->
    exists r, query_selector_all lo css d = Ok (QSuccess, r) /\ NoDup r /\
      forall n, below_eq d 1 n -> (In n r <-> chosen d css n).
  Proof.
    intros NC A. destruct (sel_accepted d R lo css A) as (r & E & ND & X). exists r. split; [exact E|]. split; [exact ND|].
    intros n B. rewrite X. unfold chosen. split; intros (p & I & H); exists p; (split; [exact I|]);
      apply (picks_tree lo (fst (read_part p)) n NC B); exact H.
  Qed.

  (** [querySelector] returns the first chosen node in document order. *)
  Lemma q_first lo css w : no_collision lo d -> accepted_css d css -> preorder d 1 w ->
    (exists a n b, w = a ++ n :: b /\ chosen d css n /\ (forall x, In x a -> ~ chosen d css x) /\
       query_selector lo css d = Ok (QSuccess, Some n)) \/
    ((forall x, ~ chosen d css x) /\
     (query_selector lo css d = Ok (QSuccess, Some 0) \/ query_selector lo css d = Ok (QSuccess, None))).
  Proof.
    intros NC A W. destruct (q_chosen lo css NC A) as (r & E & _ & X).
    destruct (u_preorder d R 1 ltac:(lia)) as (w0 & P & _ & U & Bl). rewrite (U _ W) in *. clear W w.
    set (w' := 1 :: w0) in *. clearbody w'.
    assert (Q : forall x, In x w' -> (In x r <-> chosen d css x)) by (intros x Hx; apply X, Bl, Hx).
    pose proof (uq_first d R lo css r w' E P) as F. destruct r as [|y r].
    - right. split; [|now left]. intros x Hx. pose proof (chosen_in css x Hx) as B. apply X in Hx; [destruct Hx|exact B].
    - destruct F as [(a & n & b & -> & I & Fa & F)|[Fa F]].
      + left. exists a, n, b. split; [reflexivity|]. split; [apply Q; [apply in_or_app; right; now left|exact I]|].
        split; [|exact F]. intros x Hx C. apply (Fa x Hx). apply Q; [apply in_or_app; now left|exact C].
      + right. split; [|now right]. intros x Hx. pose proof (chosen_in css x Hx) as B. apply Bl in B.
        apply (Fa x B). now apply Q.
  Qed.
End T.

(** ** Documents that look the same *)
Section Same.
  Context (d d' : dom) (R : reachable d) (R' : reachable d') (L : looks_same d d').

  Lemma same_tree : (forall n, below_eq d 1 n <-> below_eq d' 1 n) /\
    (forall n, below_eq d 1 n -> same_content d d' n /\ forall cs, children d n cs <-> children d' n cs).
  Proof.
    destruct (looks_reads d R d' R' L) as (l & P & P' & _ & H).
    destruct (u_preorder d R 1 ltac:(lia)) as (w & _ & _ & U & Bl). rewrite <- (U _ P) in Bl.
    destruct (u_preorder d' R' 1 ltac:(lia)) as (w' & _ & _ & U' & Bl'). rewrite <- (U' _ P') in Bl'.
    split.
    - intros n. rewrite <- Bl, <- Bl'. reflexivity.
    - intros n B. apply H. now apply Bl.
  Qed.
End Same.
Lemma same_rel_1 d d' : reachable d -> reachable d' -> looks_same d d' ->
  forall r m n, below_eq d 1 m -> below_eq d 1 n -> tree_related d r m n -> tree_related d' r m n.
Proof.
  intros R R' L r m n Bm Bn H. destruct (same_tree d d' R R' L) as [T1 T2].
  assert (EL : forall x, below_eq d 1 x -> is_element d x -> is_element d' x).
  { intros x Bx. unfold is_element. destruct (T2 x Bx) as [C _]. unfold same_content, content in C.
    injection C as -> _ _ _ _. auto. }
  assert (UP : forall p c l, children d p l -> In c l -> below_eq d 1 c -> below_eq d 1 p).
  { intros p c l C I B. destruct (below_last _ _ _ B) as [->|(p' & l' & Bp & C' & I')].
    - destruct (u_children d R p) as (l' & _ & _ & U & Bd & _). rewrite (U _ C) in I. specialize (Bd 1 I). lia.
    - replace p with p'; [exact Bp|]. rewrite <- (child_parent d R p l c C I). symmetry. exact (child_parent d R p' l' c C' I'). }
  destruct r; cbn [tree_related] in *.
  - destruct H as (l & C & I & E). exists l. split; [now apply T2|]. split; [exact I|]. auto.
  - clear Bn. induction H as [m n l C I E|m c n l C I E H IH].
    + assert (Bn : below_eq d 1 n) by (eapply below_trans; [exact Bm|]; eapply below_step; [exact C|exact I|apply below_refl]).
      apply (eb_child d' m n l); [now apply T2|exact I|auto].
    + assert (Bc : below_eq d 1 c) by (eapply below_trans; [exact Bm|]; eapply below_step; [exact C|exact I|apply below_refl]).
      apply (eb_step d' m c n l); [now apply T2|exact I|auto|auto].
  - destruct H as (p & l1 & l2 & C). exists p, l1, l2. apply T2; [|exact C].
    apply (UP p m _ C); [apply in_or_app; right; now left|exact Bm].
  - destruct H as (p & l1 & l2 & C & I). exists p, l1, l2. split; [|exact I]. apply T2; [|exact C].
    apply (UP p m _ C); [apply in_or_app; right; now left|exact Bm].
Qed.
Lemma same_chosen_1 d d' : reachable d -> reachable d' -> looks_same d d' -> forall l (S S' : nat -> Prop),
  (forall n, S n -> S' n) -> (forall n, S n -> below_eq d 1 n) ->
  forall n, fold_left (tree_pick d) l S n -> fold_left (tree_pick d') l S' n.
Proof.
  intros R R' L. destruct (same_tree d d' R R' L) as [T1 T2].
  assert (M : forall n cs, below_eq d 1 n -> tree_meets d n cs -> tree_meets d' n cs).
  { intros n cs B. destruct (T2 n B) as [C _]. unfold same_content, content in C. injection C as _ C1 _ C2 C3.
    induction cs as [|[x|] cs IH]; cbn [tree_meets]; auto. intros [H1 H2]. split; [|auto].
    destruct x; cbn [css_matches1] in *; congruence. }
  induction l as [|[r cs] l IH]; intros S S' E I n; cbn [fold_left]; [apply E|].
  assert (J : forall x, tree_pick d S (r, cs) x -> below_eq d 1 x).
  { intros x [_ H]. cbn [fst] in H. destruct r as [r|]; [|exact H]. destruct H as (m & Sm & Rm). eapply tree_rel_in; eauto. }
  apply IH; [|exact J]. intros x Hx. pose proof (J x Hx) as Bx. destruct Hx as [H1 H2]. split; [now apply M|].
  cbn [fst snd] in *. destruct r as [r|]; [|now apply T1].
  destruct H2 as (m & Sm & Rm). exists m. split; [auto|]. apply (same_rel_1 d d'); auto.
Qed.
Lemma same_chosen d d' : reachable d -> reachable d' -> looks_same d d' ->
  forall css n, chosen d css n <-> chosen d' css n.
Proof.
  intros R R' L css n. split; intros (p & I & H); exists p; (split; [exact I|]).
  - revert H. apply (same_chosen_1 d d' R R' L); [auto|intros ? []].
  - revert H. apply (same_chosen_1 d' d R' R (look_sym _ _ L)); [auto|intros ? []].
Qed.
(** [querySelector] gives the same answer. *)
Lemma same_first d d' : reachable d -> reachable d' -> looks_same d d' -> forall lo lo' css,
  no_collision lo d -> no_collision lo' d' -> accepted_css d css -> accepted_css d' css ->
  (exists n, n <> 0 /\ query_selector lo css d = Ok (QSuccess, Some n) /\ query_selector lo' css d' = Ok (QSuccess, Some n)) \/
  ((forall n, n <> 0 -> query_selector lo css d <> Ok (QSuccess, Some n)) /\
   (forall n, n <> 0 -> query_selector lo' css d' <> Ok (QSuccess, Some n))).
Proof.
  intros R R' L lo lo' css NC NC' A A'.
  destruct (looks_reads d R d' R' L) as (w & P & P' & _).
  pose proof (same_chosen d d' R R' L css) as SC.
  destruct (q_first d R lo css w NC A P) as [(a & n & b & E & C & F & Q)|[F Q]].
  - left. exists n. split; [|split; [exact Q|]].
    + pose proof (in_tree_id d R n (chosen_in d R css n C)). unfold node_id in *. lia.
    + destruct (q_first d' R' lo' css w NC' A' P') as [(a' & n' & b' & E' & C' & F' & Q')|[F' _]].
      * rewrite Q'. repeat f_equal.
        rewrite E in E'. clear -E' F F' C C' SC. revert a' E' F'. 
        induction a as [|x a IH]; intros [|x' a'] E' F'; simpl in E'; injection E' as E0 E1; subst; auto.
        -- exfalso. eapply F'; [left; reflexivity|]. now apply SC.
        -- exfalso. eapply F; [left; reflexivity|]. now apply SC.
        -- apply (IH (fun y Hy => F y (or_intror Hy)) a' E1 (fun y Hy => F' y (or_intror Hy))).
      * exfalso. apply (F' n). now apply SC.
  - right. split.
    + intros n N E. destruct Q as [Q|Q]; congruence.
    + intros n N E. destruct (q_first d' R' lo' css w NC' A' P') as [(a' & n' & b' & _ & C' & _)|[_ [Q'|Q']]];
        [apply (F n'); now apply SC|congruence|congruence].
Qed.

(** ** Comma *)
Lemma parts_comma a b : exists e, parts (a ++ [cCOMMA] ++ b) = parts a ++ e ++ parts b /\ (e = [] \/ e = [[]]).
Proof.
  induction a as [|c a IH].
  - exists [[]]. simpl. auto.
  - destruct IH as (e & E & He).
    assert (P : forall s, parts (c :: s) = if (c =? cCOMMA)%N then [] :: parts s
      else match parts s with [] => [[c]] | p :: ps => (c :: p) :: ps end) by reflexivity.
    rewrite <- app_comm_cons, !P. destruct (c =? cCOMMA)%N.
    + exists e. rewrite E. auto.
    + destruct (parts a) as [|p ps] eqn:Pa.
      * assert (a = []). { destruct a; [reflexivity|]. rewrite parts_cons in Pa. discriminate. }
        subst a. exists []. simpl. auto.
      * exists e. rewrite E. simpl. auto.
Qed.
Lemma empty_part : read_part [] = ([], Complete).
Proof. reflexivity. Qed.
Section Comma.
  Context (d : dom) (R : reachable d) (lo : nat -> nat).
  Lemma empty_accepted : accepted d (read_part []).
  Proof. rewrite empty_part. split; [intros ? ? ? []|reflexivity]. Qed.
  Lemma success_accepted css r : query_selector_all lo css d = Ok (QSuccess, r) -> accepted_css d css.
  Proof.
    intros E. destruct (sel_decided d R css) as [A|(a & p & b & q & E1 & E2 & E3)]; [exact A|].
    rewrite (sel_refused d R lo css a p b q E1 E2 E3) in E. injection E as -> _.
    destruct E3 as [[_ ?]|[_ [[_ ?]|[_ ?]]]]; discriminate.
  Qed.
  Lemma q_union a b ra rb : query_selector_all lo a d = Ok (QSuccess, ra) -> query_selector_all lo b d = Ok (QSuccess, rb) ->
    exists r, query_selector_all lo (a ++ [cCOMMA] ++ b) d = Ok (QSuccess, r) /\ NoDup r /\
      forall n, In n r <-> In n ra \/ In n rb.
  Proof.
    intros Ea Eb. pose proof (success_accepted a ra Ea) as Aa. pose proof (success_accepted b rb Eb) as Ab.
    destruct (parts_comma a b) as (e & E & He).
    destruct (sel_accepted d R lo a Aa) as (r1 & E1 & _ & X1). rewrite Ea in E1. injection E1 as <-.
    destruct (sel_accepted d R lo b Ab) as (r2 & E2 & _ & X2). rewrite Eb in E2. injection E2 as <-.
    destruct (sel_accepted d R lo (a ++ [cCOMMA] ++ b)) as (r & E3 & ND & X).
    - rewrite E. intros p Hp. apply in_app_or in Hp as [Hp|Hp]; [auto|]. apply in_app_or in Hp as [Hp|Hp]; [|auto].
      destruct He as [->| ->]; [destruct Hp|]. destruct Hp as [<-|[]]. apply empty_accepted.
    - exists r. split; [exact E3|]. split; [exact ND|]. intros n. rewrite X, X1, X2, E. split.
      + intros (p & Hp & H). apply in_app_or in Hp as [Hp|Hp]; [eauto|]. apply in_app_or in Hp as [Hp|Hp]; [|eauto].
        exfalso. destruct He as [->| ->]; [destruct Hp|]. destruct Hp as [<-|[]]. rewrite empty_part in H. exact H.
      + intros [(p & Hp & H)|(p & Hp & H)]; exists p; (split; [|exact H]); apply in_or_app; [now left|right].
        apply in_or_app. now right.
  Qed.
  Lemma q_union_refused a b st : st <> QSuccess ->
    query_selector_all lo a d = Ok (st, []) \/
    (exists ra, query_selector_all lo a d = Ok (QSuccess, ra)) /\ query_selector_all lo b d = Ok (st, []) ->
    query_selector_all lo (a ++ [cCOMMA] ++ b) d = Ok (st, []).
  Proof.
    intros N H. destruct (parts_comma a b) as (e & E & He). destruct H as [H|[(ra & Ha) H]].
    - destruct (sel_decided d R a) as [A|(x & p & y & q & E1 & E2 & E3)].
      + destruct (sel_accepted d R lo a A) as (r & E1 & _). congruence.
      + rewrite (sel_refused d R lo a x p y q E1 E2 E3) in H. injection H as ->.
        apply (sel_refused d R lo _ x p (y ++ e ++ parts b) st); auto. rewrite E, E1, <- app_assoc. reflexivity.
    - pose proof (success_accepted a ra Ha) as A. destruct (sel_decided d R b) as [B|(x & p & y & q & E1 & E2 & E3)].
      + destruct (sel_accepted d R lo b B) as (r & E1 & _). congruence.
      + rewrite (sel_refused d R lo b x p y q E1 E2 E3) in H. injection H as ->.
        apply (sel_refused d R lo _ (parts a ++ e ++ x) p y st); auto.
        * rewrite E, E1, <- !app_assoc. reflexivity.
        * intros p' Hp. apply in_app_or in Hp as [Hp|Hp]; [auto|]. apply in_app_or in Hp as [Hp|Hp]; [|auto].
          destruct He as [->| ->]; [destruct Hp|]. destruct Hp as [<-|[]]. apply empty_accepted.
  Qed.
End Comma.
Lemma q_edit d : reachable d -> forall lo css w f, no_collision lo d -> accepted_css d css -> preorder d 1 w ->
  (exists a n b, w = a ++ n :: b /\ chosen d css n /\ (forall x, In x a -> ~ chosen d css x) /\
     with_query lo css f d = f n d) \/
  ((forall x, ~ chosen d css x) /\ with_query lo css f d = f 0 d).
Proof.
  intros R lo css w f NC A W. unfold with_query.
  destruct (q_first d R lo css w NC A W) as [(a & n & b & E & C & F & ->)|[F [->| ->]]].
  - left. exists a, n, b. auto.
  - right. auto.
  - right. auto.
Qed.

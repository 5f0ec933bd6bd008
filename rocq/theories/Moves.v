(** * No call moves a node (C91). *)
From Coq Require Import List NArith Arith Bool Lia.
From Verif Require Import Base TrieModel DomModel ParserModel EditModel DomSpec ApiSpec LifeSpec Lemmas
  EditUser EditUserHtml ReadUser NodeUser TreeProofs TreeStep TreeOps TreeReplace ApiProofs Walk.
Import ListNotations.
Local Open Scope nat_scope.

Lemma ss_refl {A} (l : list A) : subseq l l.
Proof. induction l; constructor; auto. Qed.
Lemma ss_trans {A} (a b c : list A) : subseq a b -> subseq b c -> subseq a c.
Proof.
  intros H K. revert a H. induction K as [m|x l m K IH|x l m K IH]; intros a H.
  - inversion H. constructor.
  - inversion H; subst; constructor; auto.
  - constructor. auto.
Qed.
Lemma ss_app {A} (a b c d : list A) : subseq a b -> subseq c d -> subseq (a ++ c) (b ++ d).
Proof.
  intros H K. induction H; simpl; try (constructor; auto; fail).
  induction m; simpl; auto. now constructor.
Qed.
Lemma ss_filter {A} (f : A -> bool) l : subseq (filter f l) l.
Proof. induction l as [|x l IH]; simpl; [constructor|]. destruct (f x); constructor; auto. Qed.
Lemma ss_in {A} (a b : list A) x : subseq a b -> In x a -> In x b.
Proof. intros H. induction H; simpl; intuition. Qed.
Lemma old_app n a b : old n (a ++ b) = old n a ++ old n b.
Proof. apply filter_app. Qed.
Lemma old_none n l : (forall c, In c l -> n <= c) -> old n l = [].
Proof.
  induction l as [|x l IH]; intros H; [reflexivity|]. unfold old in *. cbn [filter]. destruct (Nat.ltb_spec x n) as [L|L].
  - specialize (H x (or_introl eq_refl)). lia.
  - apply IH. intros c Hc. apply H. now right.
Qed.
Lemma ss_old n l : subseq (old n l) l.
Proof. apply ss_filter. Qed.
Lemma ss_old2 n a b : subseq a b -> subseq (old n a) (old n b).
Proof.
  intros H. unfold old. induction H; cbn [filter]; [constructor| |].
  - destruct (x <? n); [now constructor|auto].
  - destruct (x <? n); [now constructor|auto].
Qed.
Lemma old_old n n' l : n <= n' -> old n (old n' l) = old n l.
Proof.
  intros L. unfold old. induction l as [|x l IH]; [reflexivity|]. cbn [filter]. destruct (Nat.ltb_spec x n').
  - cbn [filter]. destruct (x <? n); now rewrite IH.
  - rewrite IH. destruct (Nat.ltb_spec x n); [lia|reflexivity].
Qed.

Section Move.
  Context (d : dom) (R : reachable d).
  Notation n := (length (nodes d)).
  Definition still (d' : dom) (q : nat) : Prop :=
    forall l l', children d q l -> children d' q l' -> subseq (old n l') l.

  Lemma still_late d' q : reachable d' -> n <= q -> still d' q.
  Proof.
    intros R' L l l' _ C. rewrite old_none; [constructor|]. intros c Hc.
    destruct (kid_bounds d' R' q l' c C Hc). lia.
  Qed.
  Lemma still_none d' q : reachable d' -> children d' q [] -> still d' q.
  Proof. intros R' C l l' _ C'. rewrite (kids_fun d' R' q _ _ C' C). constructor. Qed.
  Lemma still_same d' q : (forall m, children d' q m <-> children d q m) -> still d' q.
  Proof. intros H l l' C C'. apply H in C'. rewrite (kids_fun d R q _ _ C' C). apply ss_old. Qed.
  Lemma still_at d' q l l' : reachable d' -> children d q l -> children d' q l' -> subseq (old n l') l -> still d' q.
  Proof. intros R' C C' S m m' Cm Cm'. rewrite (kids_fun d R q _ _ Cm C), (kids_fun d' R' q _ _ Cm' C'). exact S. Qed.
  Lemma still_but d' Y : reachable d' -> same_children_but d d' Y -> (forall q, In q Y -> still d' q) -> forall q, still d' q.
  Proof.
    intros R' S H q. destruct (in_dec Nat.eq_dec q Y) as [I|I]; [auto|]. apply still_same. intros m. now apply S.
  Qed.
  Lemma still_all d' : (forall q m, children d' q m <-> children d q m) -> forall q, still d' q.
  Proof. intros S q. apply still_same. apply S. Qed.
  Lemma ss_put (l1 l2 new : list nat) : (forall c, In c new -> n <= c) -> subseq (old n (l1 ++ new ++ l2)) (l1 ++ l2).
  Proof.
    intros H. rewrite !old_app, (old_none _ new H). cbn [app]. apply ss_app; apply ss_old.
  Qed.
  Lemma ss_drop (l1 l2 : list nat) c : subseq (l1 ++ l2) (l1 ++ c :: l2).
  Proof. apply ss_app; [apply ss_refl|]. constructor. apply ss_refl. Qed.

  Section Run.
    Context (d' : dom) (R' : reachable d').
    Ltac one := intros ? [<-|[]].

    (** one new node, or none, at a place in a list *)
    Lemma s_put p l1 l2 new Y : children d p (l1 ++ l2) -> children d' p (l1 ++ new ++ l2) -> (forall c, In c new -> n <= c) ->
      same_children_but d d' (p :: Y) -> (forall y, In y Y -> children d' y []) -> forall q, still d' q.
    Proof.
      intros A B H S HY. eapply still_but; [exact R'|exact S|]. intros q [<-|Hq].
      - eapply still_at; eauto. now apply ss_put.
      - apply still_none; auto.
    Qed.
    Lemma s_swap p l1 c l2 new Y : children d p (l1 ++ c :: l2) -> children d' p (l1 ++ new ++ l2) -> (forall c, In c new -> n <= c) ->
      same_children_but d d' (p :: Y) -> (forall y, In y Y -> children d' y []) -> forall q, still d' q.
    Proof.
      intros A B H S HY. eapply still_but; [exact R'|exact S|]. intros q [<-|Hq].
      - eapply still_at; eauto. eapply ss_trans; [now apply ss_put|apply ss_drop].
      - apply still_none; auto.
    Qed.
    Lemma s_frag bl h d1 ok : parse_extra (Some bl) h d = Ok (ok, d1) -> forall Y, same_children_but d1 d' Y ->
      (forall q, In q Y -> still d' q) -> forall q, still d' q.
    Proof.
      intros E Y S H q. destruct (u_fragment d R bl h ok d1 E) as (_ & F1 & _ & _).
      destruct (Nat.lt_ge_cases q n) as [L|L]; [|now apply still_late].
      destruct (in_dec Nat.eq_dec q Y) as [I|I]; [auto|]. apply still_same. intros m. rewrite (S q m I). now apply F1.
    Qed.
  End Run.

  Lemma mv_append_doc bl p e d' : reachable d' -> node_id d p -> run bl (AppendDoc p e) d = Ok d' -> forall q, still d' q.
  Proof.
    intros R' Np E. destruct (kids_at d R p) as (l & Hl). apply pair_ok in E. destruct E as (x & E).
    pose proof (gives_ok _ _ _ _ _ (u_append_doc d R p e l Np Hl) E) as (-> & A & B & C & _).
    apply (s_put d' R' p l [] [n] []); rewrite ?app_nil_r; auto; [|intros y []]. intros c [<-|[]]; lia.
  Qed.
  Lemma mv_prepend_doc bl p e d' : reachable d' -> node_id d p -> run bl (PrependDoc p e) d = Ok d' -> forall q, still d' q.
  Proof.
    intros R' Np E. destruct (kids_at d R p) as (l & Hl). apply pair_ok in E. destruct E as (x & E).
    pose proof (gives_ok _ _ _ _ _ (u_prepend_doc d R p e l Np Hl) E) as (-> & A & B & C & _).
    apply (s_put d' R' p [] l [n] []); auto; [|intros y []]. intros c [<-|[]]; lia.
  Qed.
  Lemma mv_append_text bl p s d' : reachable d' -> node_id d p -> run bl (AppendText p s) d = Ok d' -> forall q, still d' q.
  Proof.
    intros R' Np E. destruct (kids_at d R p) as (l & Hl). apply pair_ok in E. destruct E as (x & E).
    destruct (text_end_dec d l) as [(c & o & He)|He].
    - pose proof (gives_ok _ _ _ _ _ (u_append_text_merge d R p s l c o Np Hl He) E) as (_ & A & _).
      apply still_all. intros q m. apply A. intros [].
    - pose proof (gives_ok _ _ _ _ _ (u_append_text_new d R p s l Np Hl He) E) as (-> & A & B & C & _).
      apply (s_put d' R' p l [] [n] []); rewrite ?app_nil_r; auto; [|intros y []]. intros c [<-|[]]; lia.
  Qed.
  Lemma mv_prepend_text bl p s d' : reachable d' -> node_id d p -> run bl (PrependText p s) d = Ok d' -> forall q, still d' q.
  Proof.
    intros R' Np E. destruct (kids_at d R p) as (l & Hl). apply pair_ok in E. destruct E as (x & E).
    destruct (text_start_dec d l) as [(c & o & He)|He].
    - pose proof (gives_ok _ _ _ _ _ (u_prepend_text_merge d R p s l c o Np Hl He) E) as (_ & A & _).
      apply still_all. intros q m. apply A. intros [].
    - pose proof (gives_ok _ _ _ _ _ (u_prepend_text_new d R p s l Np Hl He) E) as (-> & A & B & C & _).
      apply (s_put d' R' p [] l [n] []); auto; [|intros y []]. intros c [<-|[]]; lia.
  Qed.
  Lemma mv_replace_doc bl c e d' : reachable d' -> attached d c -> run bl (ReplaceDoc c e) d = Ok d' -> forall q, still d' q.
  Proof.
    intros R' (p & l & P0 & Hl & Hc) E. apply pair_ok in E. destruct E as (x & E). apply in_split in Hc. destruct Hc as (l1 & l2 & ->).
    pose proof (gives_ok _ _ _ _ _ (u_replace_doc d R p c l1 l2 e Hl) E) as (-> & A & B & C & _).
    apply (s_swap d' R' p l1 c l2 [n] []); auto; [|intros y []]. intros y [<-|[]]; lia.
  Qed.
  Lemma pre_at c : 0 < c < n -> exists D, preorder d c D.
  Proof. intros H. destruct (u_preorder d R c) as (m & PD & _); [lia|]. eauto. Qed.
  Lemma mv_replace_text bl c s d' : reachable d' -> attached d c -> run bl (ReplaceText c s) d = Ok d' -> forall q, still d' q.
  Proof.
    intros R' (p & l & P0 & Hl & Hc) E. apply pair_ok in E. destruct E as (x & E). apply in_split in Hc. destruct Hc as (l1 & l2 & ->).
    assert (Hc : In c (l1 ++ c :: l2)) by (apply in_or_app; simpl; auto).
    destruct (kid_bounds d R p _ c Hl Hc) as (Lc1 & Lc2).
    destruct (merges_dec d l1 l2 s) as [(t & s' & M)|(H1 & H2)].
    - destruct (pre_at c) as (D & PD); [lia|].
      pose proof (gives_ok _ _ _ _ _ (u_replace_text_merge d R p c l1 l2 s t s' D Hl M PD) E) as (-> & A & B & C & S & _).
      apply (s_swap d' R' p l1 c l2 [] D); auto; [intros y []|]. intros y Hy. apply C. now right.
    - pose proof (gives_ok _ _ _ _ _ (u_replace_text_new d R p c l1 l2 s Hl H1 H2) E) as (-> & A & B & C & _).
      apply (s_swap d' R' p l1 c l2 [n] []); auto; [|intros y []]. intros y [<-|[]]; lia.
  Qed.
  Lemma mv_remove bl c d' : reachable d' -> attached d c -> run bl (Remove c) d = Ok d' -> forall q, still d' q.
  Proof.
    intros R' (p & l & P0 & Hl & Hc) E. apply in_split in Hc. destruct Hc as (l1 & l2 & ->).
    assert (Hc : In c (l1 ++ c :: l2)) by (apply in_or_app; simpl; auto).
    destruct (kid_bounds d R p _ c Hl Hc) as (Lc1 & Lc2). destruct (pre_at c) as (D & PD); [lia|].
    destruct (u_remove d R p c l1 l2 D Hl PD) as (d0 & E0 & A & B & C & _). cbn [run] in E. rewrite E0 in E. injection E as ->.
    apply (s_swap d' R' p l1 c l2 [] D); auto; [intros y []|]. intros y Hy. now apply B.
  Qed.
  Lemma pres_at p l : children d p l -> exists D, preorders d l D.
  Proof.
    intros Hl. assert (H : forall c, In c l -> 0 < c < n) by (intros c Hc; destruct (kid_bounds d R p l c Hl Hc); lia).
    clear Hl. induction l as [|c l IH]; [exists []; constructor|].
    destruct IH as (D & HD); [intros; apply H; now right|]. destruct (pre_at c) as (D0 & H0); [apply H; now left|].
    exists (D0 ++ D). now constructor.
  Qed.
  Lemma mv_remove_children bl p d' : reachable d' -> p <> 0 -> run bl (RemoveChildren p) d = Ok d' -> forall q, still d' q.
  Proof.
    intros R' P0 E. destruct (kids_at d R p) as (l & Hl). destruct (pres_at p l Hl) as (D & PD).
    destruct (u_remove_children d R p l D P0 Hl PD) as (d0 & E0 & A & B & C & _). cbn [run] in E. rewrite E0 in E. injection E as ->.
    eapply still_but; [exact R'|exact C|]. intros q [<-|Hq]; apply still_none; auto. now apply B.
  Qed.
  Lemma mv_set_text bl p s d' : reachable d' -> node_id d p -> run bl (SetText p s) d = Ok d' -> forall q, still d' q.
  Proof.
    intros R' Np E. destruct (kids_at d R p) as (l & Hl). destruct (pres_at p l Hl) as (D & PD).
    pose proof (gives_ok _ _ _ _ _ (u_set_text d R p s l D Np Hl PD) E) as (A & B & _ & C & S & _).
    eapply still_but; [exact R'|exact S|]. intros q [<-|Hq].
    - eapply still_at; eauto. rewrite old_none; [constructor|]. intros c [<-|[]]. lia.
    - apply still_none; auto. now apply C.
  Qed.

  (** Fragments *)
  Lemma tops_late bl h d1 tops : parse_extra (Some bl) h d = Ok (true, d1) -> n < length (nodes d1) -> sibs d1 n tops ->
    (forall c, In c tops -> n <= c).
  Proof.
    intros E L S. destruct (u_fragment_order d R bl h d1 E L) as (tops' & S' & P').
    assert (F : forall x a b, sibs d1 x a -> sibs d1 x b -> a = b).
    { clear. intros x a b H. revert b. induction H; intros b K; inversion K; subst; try congruence; try lia. f_equal; auto. }
    rewrite (F _ _ _ S S'). intros c Hc.
    assert (G : forall l m, preorders d1 l m -> In c l -> In c m).
    { clear. intros l m H. induction H as [|y l0 m1 m2 P _ IH]; simpl; [auto|]. intros [->|Hc]; apply in_or_app; [left|auto].
      inversion P; subst. now left. }
    specialize (G _ _ P' Hc). apply in_seq in G. lia.
  Qed.
  Lemma failed bl h d1 : reachable d1 -> parse_extra (Some bl) h d = Ok (false, d1) -> forall q, still d1 q.
  Proof. intros R1 E. apply (s_frag d1 R1 bl h d1 false E []); [intros q m _; reflexivity|intros q []]. Qed.
  Lemma html_still bl o h p d' (Ho : o = (fun p => AppendHtml p h) \/ o = (fun p => PrependHtml p h) \/ o = (fun p => ReplaceHtml p h)) :
    reachable d' -> has_nodes d bl h -> run bl (o p) d = Ok d' ->
    (forall d1 tops, parse_extra (Some bl) h d = Ok (true, d1) -> n < length (nodes d1) -> sibs d1 n tops ->
       (forall c, In c tops -> n <= c) -> forall q, still d' q) -> forall q, still d' q.
  Proof.
    intros R' HN E H.
    assert (exists ok d1, parse_extra (Some bl) h d = Ok (ok, d1)) as ([] & d1 & Ep).
    { destruct Ho as [-> |[-> | ->]]; cbn [run] in E; unfold append_html, prepend_html, replace_with_html in E;
        destruct (parse_extra (Some bl) h d) as [[ok d1]| | |]; try discriminate; eauto. }
    - pose proof (HN d1 Ep) as L. destruct (u_fragment_order d R bl h d1 Ep L) as (tops & S & _).
      eapply H; eauto. eapply tops_late; eauto.
    - destruct (u_failed_append d bl h d1 p Ep) as (A & B & C).
      assert (Ed : d' = d1).
      { destruct Ho as [-> |[-> | ->]]; cbn [run] in E; rewrite ?A, ?B, ?C in E; cbn in E; congruence. }
      rewrite Ed in *. eapply failed; eauto.
  Qed.
  Lemma late_tl (l : list nat) : (forall c, In c l -> n <= c) -> forall c, In c (tl l) -> n <= c.
  Proof. intros H c Hc. apply H. now apply tl_incl. Qed.
  Lemma mv_append_html bl p h d' : reachable d' -> node_id d p -> has_nodes d bl h -> run bl (AppendHtml p h) d = Ok d' -> forall q, still d' q.
  Proof.
    intros R' Np HN E. eapply (html_still bl (fun p => AppendHtml p h)); eauto. intros d1 tops Ep L S Lt.
    destruct (kids_at d R p) as (l & Hl).
    assert (Plain : no_text_end d l \/ no_text_start d1 tops -> forall q, still d' q).
    { intros HX. destruct (u_append_html_plain d R bl h d1 Ep L tops S p l Np Hl HX) as (d0 & E0 & A & B & _).
      cbn [run] in E. rewrite E0 in E. injection E as ->.
      apply (s_frag d' R' bl h d1 true Ep [p] B). intros q [<-|[]]. eapply still_at; eauto.
      rewrite <- (app_nil_r l) at 2. rewrite <- (app_nil_r tops). now apply ss_put. }
    destruct (text_end_dec d l) as [(c & o & He)|He]; [|auto].
    destruct (text_start_dec d1 tops) as [(a & s & Hs)|Hs]; [|auto].
    pose proof Hs as ((l0 & El0) & Ea).
    assert (En : a = n). { rewrite El0 in S. inversion S; reflexivity. }
    rewrite En in Ea.
    destruct (u_append_html_merge d R bl h d1 Ep L tops S p l Np Hl c o s He Ea) as (d0 & E0 & A & _ & _ & B & _).
    cbn [run] in E. rewrite E0 in E. injection E as ->.
    apply (s_frag d' R' bl h d1 true Ep [p] B). intros q [<-|[]]. eapply still_at; eauto.
    rewrite <- (app_nil_r l) at 2. rewrite <- (app_nil_r (tl tops)). apply ss_put. now apply late_tl.
  Qed.
  Lemma mv_prepend_html bl p h d' : reachable d' -> node_id d p -> has_nodes d bl h -> run bl (PrependHtml p h) d = Ok d' -> forall q, still d' q.
  Proof.
    intros R' Np HN E. eapply (html_still bl (fun p => PrependHtml p h)); eauto. intros d1 tops Ep L S Lt.
    destruct (kids_at d R p) as (l & Hl).
    assert (Plain : no_text_start d l \/ no_text_end d1 tops -> forall q, still d' q).
    { intros HX. destruct (u_prepend_html_plain d R bl h d1 Ep L tops S p l Np Hl HX) as (d0 & E0 & A & B & _).
      cbn [run] in E. rewrite E0 in E. injection E as ->.
      apply (s_frag d' R' bl h d1 true Ep [p] B). intros q [<-|[]]. eapply still_at; eauto.
      apply (ss_put [] l tops). exact Lt. }
    destruct (text_start_dec d l) as [(c & o & He)|He]; [|auto].
    destruct (text_end_dec d1 tops) as [(a & s & Hs)|Hs]; [|auto].
    pose proof Hs as ((l0 & El0) & Ea).
    destruct (u_prepend_html_merge d R bl h d1 Ep L tops S p l Np Hl l0 a c o s El0 He Ea) as (d0 & E0 & A & _ & _ & B & _).
    cbn [run] in E. rewrite E0 in E. injection E as ->.
    apply (s_frag d' R' bl h d1 true Ep [p] B). intros q [<-|[]]. eapply still_at; eauto.
    apply (ss_put [] l l0). intros y Hy. apply Lt. rewrite El0. apply in_or_app. auto.
  Qed.
  Lemma removelast_in {A} (l : list A) x : In x (removelast l) -> In x l.
  Proof. induction l as [|y [|z l] IH]; simpl in *; intuition. Qed.
  Lemma first_dec d1 l1 tops : exists f, first_merge d d1 l1 tops f.
  Proof.
    destruct (text_end_dec d l1) as [(t & o & H)|H]; [|exists None; now left].
    destruct (text_start_dec d1 tops) as [(y & s & ((r & H1) & H2))|H']; [|exists None; now right].
    exists (Some (t, o ++ [cSP] ++ s)). cbn. exists o, s, y, r. auto.
  Qed.
  Lemma last_dec d1 l2 tops : exists g, last_merge d d1 l2 tops g.
  Proof.
    destruct (text_start_dec d l2) as [(t & o & H)|H]; [|exists None; now left].
    destruct (text_end_dec d1 tops) as [(y & s & ((r & H1) & H2))|H']; [|exists None; now right].
    exists (Some (t, s ++ [cSP] ++ o)). cbn. exists o, s, y, r. auto.
  Qed.
  Lemma mv_replace_html bl c h d' : reachable d' -> valid d bl (ReplaceHtml c h) -> run bl (ReplaceHtml c h) d = Ok d' -> forall q, still d' q.
  Proof.
    intros R' (Ha & HN & HB) E. eapply (html_still bl (fun p => ReplaceHtml p h)); eauto. intros d1 tops Ep L S Lt.
    destruct Ha as (p & l & P0 & Hl & Hc). apply in_split in Hc. destruct Hc as (l1 & l2 & ->).
    pose proof (HB d1 p l1 l2 Ep Hl) as NB. clear HB.
    assert (Hc : In c (l1 ++ c :: l2)) by (apply in_or_app; simpl; auto).
    destruct (kid_bounds d R p _ c Hl Hc) as (Lc1 & Lc2).
    assert (Old : forall x s, In x (l1 ++ l2) -> text_of d x = Some s -> is_text_node d1 x).
    { intros x s Hx Ht. exists s. destruct (u_fragment d R bl h true d1 Ep) as (_ & _ & F2 & _).
      assert (Lx : x < n). { apply (kid_bounds d R p _ x Hl). rewrite in_app_iff in *. simpl. tauto. }
      specialize (F2 x Lx). unfold same_content, content in F2. congruence. }
    assert (Tn : exists r, tops = n :: r).
    { inversion S; subst; eauto. exfalso. assert (n <> 0); [|congruence]. lia. }
    assert (Two : forall f g, first_merge d d1 l1 tops f -> last_merge d d1 l2 tops g ->
        (length tops = 1 -> f = None /\ g = None) ->
        (let A := match f with Some _ => tl tops | None => tops end in
         match g with Some _ => removelast A | None => A end) <> [] -> forall q, still d' q).
    { intros f g H1 H2 H3 H4.
      destruct (u_replace_html d R bl h d1 Ep L tops S p c l1 l2 Hl f g H1 H2 H3 H4) as (d0 & E0 & A & B & _).
      cbn [run] in E. rewrite E0 in E. injection E as ->.
      apply (s_frag d' R' bl h d1 true Ep [p] B). intros q [<-|[]]. eapply still_at; eauto.
      eapply ss_trans; [apply ss_put|apply ss_drop]. intros y Hy. apply Lt. destruct f, g;
        try apply removelast_in in Hy; try apply tl_incl in Hy; exact Hy. }
    destruct Tn as (r & Et). destruct r as [|b r].
    - destruct (text_of d1 n) as [s|] eqn:T1.
      + destruct (merges_dec d l1 l2 s) as [(t & s' & M)|(H1 & H2)].
        * destruct (nil_dec l1) as [El1|Ne].
          { exfalso. apply NB. left. split; [rewrite <- Et; exact S|]. split; [exists s; exact T1|]. split; [exact El1|].
            destruct M as [(o & ((l0 & X) & _) & _)|(_ & o & ((l0 & X) & Xt) & _)]; [rewrite El1 in X; destruct l0; discriminate|].
            exists t, l0. split; auto. eapply Old; eauto. rewrite X. apply in_or_app. simpl. auto. }
          destruct (pre_at c) as (D & PD); [lia|].
          assert (S' : sibs d1 n [n]) by (rewrite <- Et; exact S).
          destruct (u_replace_html_text d R bl h d1 Ep L [n] S' p c l1 l2 Hl s t s' D eq_refl T1 M Ne PD) as (x & d0 & E0 & A & _ & B & C & _).
          cbn [run] in E. rewrite E0 in E. injection E as ->.
          apply (s_frag d' R' bl h d1 true Ep (p :: D) C). intros q [<-|Hq].
          -- eapply still_at; eauto. eapply ss_trans; [apply ss_old|apply ss_drop].
          -- apply still_none; auto. apply B. now right.
        * apply (Two None None); [now left|now left|auto|]. cbn. rewrite Et. discriminate.
      + apply (Two None None); [right|right|auto|]; rewrite Et.
        * intros l0 x Ex. congruence.
        * intros l0 x Ex. destruct l0 as [|y [|]]; try discriminate. injection Ex as <-. exact T1.
        * discriminate.
    - destruct (first_dec d1 l1 tops) as (f & Hf). destruct (last_dec d1 l2 tops) as (g & Hg).
      apply (Two f g); auto.
      + rewrite Et. discriminate.
      + rewrite Et. cbn. destruct f as [[t s]|]; destruct g as [[t' s']|]; cbn [tl]; try discriminate.
        * destruct r as [|b' r]; [|discriminate]. exfalso. apply NB. right. exists b. split; [rewrite <- Et; exact S|].
          destruct Hf as (o1 & s1 & y & r & Ey & ((l0 & X) & Xt) & Ty & _). rewrite Et in Ey. injection Ey as <- <-.
          destruct Hg as (o2 & s2 & z & r' & Ez & ((l0' & X') & Xt') & Tz & _). rewrite Et in Ez.
          assert (Ez' : [n] ++ [b] = r' ++ [z]) by exact Ez. apply app_inj_tail in Ez'. destruct Ez' as (_ & <-).
          split; [exists s1; exact Ty|]. split; [exists s2; exact Tz|]. split.
          -- exists t, l0. split; auto. eapply Old; eauto. rewrite X. apply in_or_app. left. apply in_or_app. simpl. auto.
          -- exists t', l0'. split; auto. eapply Old; eauto. rewrite X'. apply in_or_app. simpl. auto.
  Qed.

  Lemma mv_run bl o d' : valid d bl o -> run bl o d = Ok d' -> forall q, still d' q.
  Proof.
    intros HV E. assert (R' : reachable d') by (eapply (reach_step d bl o); eauto).
    assert (AT : forall p, only_attrs_of d d' p -> forall q, still d' q).
    { intros p (_ & _ & _ & O & _). now apply still_all. }
    destruct o as [p e|p s|p h|p e|p s|p h|c e|c s|c h|c|p|p s|p b|p k w|p b|p k|p k w|p s app|p tag pr]; cbn [valid] in HV.
    - eapply mv_append_doc; eauto.
    - eapply mv_append_text; eauto.
    - destruct HV. eapply mv_append_html; eauto.
    - eapply mv_prepend_doc; eauto.
    - eapply mv_prepend_text; eauto.
    - destruct HV. eapply mv_prepend_html; eauto.
    - eapply mv_replace_doc; eauto.
    - eapply mv_replace_text; eauto.
    - eapply mv_replace_html; eauto.
    - eapply mv_remove; eauto.
    - eapply mv_remove_children; eauto.
    - eapply mv_set_text; eauto.
    - apply (AT p). apply (gives_ok _ _ _ _ _ (u_add_bool d R p b HV) E).
    - apply (AT p). apply (gives_ok _ _ _ _ _ (u_add_prop d R p k w HV) E).
    - destruct (u_remove_bool d R p b) as (d0 & E0 & A & _); [destruct HV; lia|]. cbn [run] in E. rewrite E in E0. injection E0 as <-. now apply (AT p).
    - destruct (u_remove_prop d R p k) as (d0 & E0 & A & _); [destruct HV; lia|]. cbn [run] in E. rewrite E in E0. injection E0 as <-. now apply (AT p).
    - apply pair_ok in E. destruct E as (ok & E). assert (P0 : p <> 0) by (destruct HV; lia).
      pose proof (gives_ok _ _ _ _ _ (u_set_prop d R p k w P0) E) as (A & B & C). destruct ok.
      + destruct (C eq_refl) as (C1 & _). now apply (AT p).
      + rewrite (B eq_refl). apply still_all. intros; reflexivity.
    - destruct (u_add_text d R p s app HV) as (o & d0 & O & E0 & _ & _ & C & _). cbn [run] in E. rewrite E in E0. injection E0 as <-.
      now apply still_all.
    - pose proof (gives_ok _ _ _ _ _ (u_set_tag d R p tag pr HV) E) as (_ & _ & C & _). now apply still_all.
  Qed.
End Move.

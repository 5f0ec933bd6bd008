(** * The main loop of the parser. *)
From Coq Require Import List NArith Arith Bool Lia.
From Verif Require Import Base TrieModel DomModel ParserModel DomSpec
  Lemmas TrieProofs Tables Inv Surgery Attach Link RegProofs ParseSafe ParseTree.
Import ListNotations.
Local Open Scope nat_scope.

(** One node added at the end of the node table, not linked. *)
Definition added (d d' : dom) (x : nat) : Prop :=
  x = length (nodes d) /\ RegInv d' /\ tabs_eq d d' /\ regs_ext d d' /\
  (exists n, nodes d' = nodes d ++ [n] /\ n_id n = x /\ pay_ok n /\ is_live n) /\
  (exists be, bprops d' = bprops d ++ be /\ forall e, In e be -> fst e = x) /\
  (exists pe, props d' = props d ++ pe /\ forall e, In e pe -> p_node e = x).

Lemma elem_added_added d d' x tag bs ps : elem_added d d' x tag bs ps -> added d d' x.
Proof.
  intros (H1 & H2 & H3 & H4 & (t & r & H5 & _ & _ & NZ) & be & pe & B1 & B2 & B3 & B4 & _).
  split; [auto|]. split; [auto|]. split; [auto|]. split; [auto|]. split; [|split; eauto].
  eexists. split; [exact H5|]. split; [reflexivity|]. split; [simpl; red; simpl; eauto|].
  left. reflexivity.
Qed.

Lemma text_added_added d d' x s : RegInv d -> text_added d d' x s -> added d d' x.
Proof.
  intros R (-> & ->). split; [auto|].
  split; [apply RegInv_push; auto; discriminate|].
  split; [repeat split|]. split; [exact (regs_ext_refl d)|]. split.
  - eexists. split; [reflexivity|]. split; [reflexivity|]. split; [red; simpl; eauto|].
    right. reflexivity.
  - split; exists []; rewrite app_nil_r; split; auto; intros e [].
Qed.

Lemma elem_added_tag d d' x tag bs ps :
  elem_added d d' x tag bs ps -> tag_name d' x = Some tag /\ text_of d' x = None /\
    kind d' x = Some TDocument.
Proof.
  intros (-> & _ & _ & _ & (t & r & H5 & H6 & H7 & _) & _).
  unfold tag_name, text_of, kind. rewrite H5, nth_error_app2, Nat.sub_diag by auto. simpl.
  rewrite H6, H7. auto.
Qed.

Lemma text_added_text d d' x s :
  text_added d d' x s -> text_of d' x = Some s /\ tag_name d' x = None /\
    kind d' x = Some TText.
Proof.
  intros (-> & ->). unfold text_of, tag_name, kind. simpl.
  rewrite nth_error_app2, Nat.sub_diag by auto. simpl. auto.
Qed.

Lemma added_len d d' x : added d d' x -> length (nodes d') = S x /\ x = length (nodes d).
Proof.
  intros (-> & _ & _ & _ & (n & -> & _) & _). rewrite app_length. simpl. split; lia.
Qed.

Lemma added_content d d' x n :
  RegInv d -> added d d' x -> n <> x -> n < length (nodes d) -> same_content d d' n.
Proof.
  intros R (-> & _ & _ & X & (m & E & _) & (be & B1 & B2) & (pe & P1 & P2)) Hn Hl.
  apply content_old; auto.
  - rewrite E, nth_error_app1; auto.
  - exists be. split; auto. intros e He. rewrite (B2 e He). lia.
  - exists pe. split; auto. intros e He. rewrite (P2 e He). lia.
Qed.

Lemma added_inv d d' x k : Inv d k -> added d d' x -> Inv d' k /\ fresh d' k x.
Proof.
  intros I (-> & _ & (T1 & T2 & T3) & _ & (n & E & Hid & _) & _).
  assert (I' : Inv d' k).
  { eapply (Inv_nav (push_node d n)); [repeat split; simpl; auto|].
    apply Inv_push_node; auto. }
  split; auto. pose proof (inv_len _ _ I).
  split; [rewrite E, app_length; simpl; lia|].
  split; [intros q; apply fresh_not_in; auto|].
  split; [intros p; rewrite T2; eapply fresh_pc; eauto|].
  apply (par_empty d k _ I). left. auto.
Qed.

(** Contents do not depend on the navigation tables. *)
Lemma same_data_content d d' n : same_data d d' -> same_content d d' n.
Proof. unfold same_data. intros ->. reflexivity. Qed.
Lemma same_data_reg d d' : same_data d d' -> RegInv d -> RegInv d'.
Proof. unfold same_data. intros -> []. constructor; auto. Qed.
Lemma same_data_added d d1 d2 x : added d d1 x -> same_data d1 d2 ->
  RegInv d2 /\ regs_ext d d2 /\ (exists n, nodes d2 = nodes d ++ [n]) /\
  (exists be, bprops d2 = bprops d ++ be /\ forall e, In e be -> fst e = x) /\
  (exists pe, props d2 = props d ++ pe /\ forall e, In e pe -> p_node e = x).
Proof.
  intros (H1 & H2 & H3 & H4 & (n & H5 & _) & H6 & H7) E.
  split; [eapply same_data_reg; eauto|]. unfold same_data in E. rewrite E. simpl.
  split; [exact H4|]. eauto.
Qed.

Lemma content_parts d d' n : same_content d d' n ->
  kind d' n = kind d n /\ tag_name d' n = tag_name d n /\ text_of d' n = text_of d n /\
  bool_attrs d' n = bool_attrs d n /\ attrs d' n = attrs d n.
Proof. unfold same_content, content. intros E. injection E. auto. Qed.

Lemma same_content_trans a b c n :
  same_content a b n -> same_content b c n -> same_content a c n.
Proof. unfold same_content. congruence. Qed.

(** What parsing keeps of the DOM it started from. *)
Definition keeps (n0 : nat) (d0 d : dom) : Prop :=
  regs_ext d0 d /\ (exists x, nodes d = nodes d0 ++ x) /\
  (exists be, bprops d = bprops d0 ++ be /\ forall e, In e be -> n0 <= fst e) /\
  (exists pe, props d = props d0 ++ pe /\ forall e, In e pe -> n0 <= p_node e).

Lemma keeps_refl n0 d : keeps n0 d d.
Proof.
  split; [apply regs_ext_refl|]. split; [exists []; now rewrite app_nil_r|].
  split; exists []; (split; [now rewrite app_nil_r|intros e []]).
Qed.

Lemma keeps_step n0 d0 d d1 d2 x :
  keeps n0 d0 d -> added d d1 x -> same_data d1 d2 -> n0 <= x -> keeps n0 d0 d2.
Proof.
  intros (X & (y & N) & (be & B1 & B2) & (pe & P1 & P2)) A E Hx.
  destruct (same_data_added _ _ _ _ A E)
    as (_ & X2 & (n & N2) & (be2 & B3 & B4) & (pe2 & P3 & P4)).
  split; [eapply regs_ext_trans; eauto|].
  split; [exists (y ++ [n]); rewrite N2, N; now rewrite app_assoc|]. split.
  - exists (be ++ be2). split; [rewrite B3, B1; now rewrite app_assoc|].
    intros e He. apply in_app_or in He as [He|He]; auto. rewrite (B4 e He). auto.
  - exists (pe ++ pe2). split; [rewrite P3, P1; now rewrite app_assoc|].
    intros e He. apply in_app_or in He as [He|He]; auto. rewrite (P4 e He). auto.
Qed.

Lemma keeps_content n0 d0 d n :
  RegInv d0 -> keeps n0 d0 d -> n < n0 -> n < length (nodes d0) -> same_content d0 d n.
Proof.
  intros R (X & (y & N) & (be & B1 & B2) & (pe & P1 & P2)) Hn Hl.
  apply content_old; auto.
  - rewrite N, nth_error_app1; auto.
  - exists be. split; auto. intros e He. specialize (B2 e He). lia.
  - exists pe. split; auto. intros e He. specialize (P2 e He). lia.
Qed.

Definition old_key (n0 : nat) (q : key) : Prop :=
  match q with Par p => p < n0 | Flo _ => True end.

(** The parts of the state that survive even when the parser gives up. *)
Record PW (n0 : nat) (d0 : dom) (k0 : kids) (b : key) (d : dom) (k : kids) : Prop := {
  pw_good : Good d k;
  pw_pre : pres (length (nodes d)) k (k b) = seq n0 (length (nodes d) - n0);
  pw_n : n0 <= length (nodes d);
  pw_old : forall q, q <> b -> old_key n0 q -> k q = k0 q;
  pw_leaf : forall p, n0 <= p -> k (Par p) <> [] ->
     exists tag, tag_name d p = Some tag /\ ~ leaf_tag tag;
  pw_text : forall i s, n0 <= i -> text_of d i = Some s -> normP s;
  pw_keep : keeps n0 d0 d }.

(** Distance of a node from the bottom container. *)
Inductive dep (k : kids) (b : key) : nat -> nat -> Prop :=
| dep_top x : In x (k b) -> dep k b x 1
| dep_step p c m : In c (k (Par p)) -> dep k b p m -> dep k b c (S m).

Record PS (n0 : nat) (d0 : dom) (k0 : kids) (b : key) (bot : list frame)
          (s : list frame) (prev : nat) (d : dom) (k : kids) : Prop := {
  ps_w : PW n0 d0 k0 b d k;
  ps_linked : linked b bot k s;
  ps_prev : prev_ok b k s prev;
  ps_frames : forall p tag, In (p, tag) s ->
     In (p, tag) bot \/ (n0 <= p /\ tag_name d p = Some tag /\ ~ leaf_tag tag);
  ps_depth : length s <= max_depth;
  ps_bound : forall x m, dep k b x m -> m + length bot <= S max_depth }.

Section Step.
  Context (n0 : nat) (d0 : dom) (k0 : kids) (b : key) (bot : list frame).
  Context (M : pmode n0 b bot).

  Lemma linked_upk k s x q :
    linked b bot k s -> q = curk b s -> (forall q', NoDup (k q')) ->
    (forall q' c, In c (k (Par q')) -> q' < c) ->
    linked b bot (upk k q (k q ++ [x])) s.
  Proof.
    intros L Hq Hnd Hord.
    (* only strictly lower containers matter; they differ from [q] *)
    assert (G : forall s', linked b bot k s' ->
       (forall p, q = Par p -> match s' with (p', _) :: _ => p' <= p | [] => True end) ->
       (forall f, q = Flo f -> s' = []) ->
       linked b bot (upk k q (k q ++ [x])) s').
    { induction 1 as [|p tag s' Hl L' IH]; intros Hle Hf; [constructor|].
      constructor.
      - rewrite upk_neq; auto. intros E.
        destruct q as [p'|f].
        + specialize (Hle p' eq_refl). apply last_error_in in Hl. rewrite <- E in Hl.
          apply Hord in Hl. lia.
        + specialize (Hf f eq_refl). discriminate.
      - apply IH.
        + intros p' E. destruct s' as [|[p'' tag''] s']; auto.
          simpl in Hl. apply last_error_in, Hord in Hl. specialize (Hle p' E). lia.
        + intros f E. specialize (Hf f E). discriminate. }
    apply G; auto.
    - intros p E. rewrite Hq in E. destruct s as [|[p' tag] s]; auto.
      simpl in E. injection E as ->. lia.
    - intros f E. rewrite Hq in E. destruct s as [|[p' tag] s]; auto. discriminate.
  Qed.

  Lemma dep_ge n k x m : kw n k -> dep k b x m -> 2 <= x.
  Proof. intros W H. destruct H as [y H|p c m H _]; eapply (kw_bound _ _ W); eauto. Qed.

  (** Frames sit at their position in the stack. *)
  Lemma frame_dep n k s : kw n k -> linked b bot k s -> forall p tag s' m,
    s = (p, tag) :: s' -> dep k b p m -> m + length bot = length s.
  Proof.
    intros W L. induction L as [|p0 tag0 s0 Hl L IH]; intros p tag s' m E H.
    - exfalso. destruct M as [(_ & Eb & _)|(_ & Eb & _)]; rewrite Eb in E; [|discriminate].
      injection E as <- _ _. apply (dep_ge _ _ _ _ W) in H. lia.
    - injection E as -> -> ->. apply last_error_in in Hl. cbn [length].
      inversion H as [y Hy|p1 c m1 Hc Hd]; subst.
      + pose proof (kw_disj _ _ W _ _ _ Hl Hy) as Eq. inversion L as [Eb|p1 t1 s1 Hl1 L1]; subst; [reflexivity|].
        exfalso. simpl in Eq. apply last_error_in in Hl1.
        destruct M as [(Eb & _)|(Eb & _)]; rewrite Eb in Eq; [|discriminate].
        injection Eq as ->. apply (kw_bound _ _ W) in Hl1. lia.
      + pose proof (kw_disj _ _ W _ _ _ Hl Hc) as Eq. destruct s' as [|[p2 t2] s2].
        * exfalso. simpl in Eq. destruct M as [(_ & Eb & _)|(Eb & _)]; [|rewrite Eb in Eq; discriminate].
          inversion L; subst. discriminate.
        * simpl in Eq. injection Eq as ->. specialize (IH p1 t2 s2 m1 eq_refl Hd). simpl in *. lia.
  Qed.

  Lemma dep_upk n k s x : kw n k -> linked b bot k s -> curk b s <> Par x -> k (Par x) = [] ->
    forall y m, dep (upk k (curk b s) (k (curk b s) ++ [x])) b y m ->
      dep k b y m \/ (y = x /\ m + length bot = S (length s)).
  Proof.
    intros W L Hq Hk y m H. induction H as [y Hy|p c m Hc Hd IH].
    - unfold upk in Hy. destruct (key_dec (curk b s) b) as [E|E]; [|left; now constructor].
      apply in_app_or in Hy as [Hy|[<-|[]]]; [left; constructor; now rewrite <- E|].
      right. split; auto. inversion L as [Eb|p1 t1 s1 Hl1 L1]; subst; [reflexivity|].
      exfalso. simpl in E. apply last_error_in in Hl1.
      destruct M as [(Eb & _)|(Eb & _)]; rewrite Eb in E; [|discriminate].
      injection E as ->. apply (kw_bound _ _ W) in Hl1. lia.
    - destruct IH as [IH|[-> IH]].
      + unfold upk in Hc. destruct (key_dec (curk b s) (Par p)) as [E|E].
        * apply in_app_or in Hc as [Hc|[<-|[]]].
          -- left. eapply dep_step; [rewrite <- E; eauto|auto].
          -- right. split; auto. destruct s as [|[p2 t2] s2].
             ++ exfalso. simpl in E. destruct M as [(_ & Eb & _)|(Eb & _)]; [|rewrite Eb in E; discriminate].
                inversion L; subst. discriminate.
             ++ simpl in E. injection E as ->.
                pose proof (frame_dep _ _ _ W L p t2 s2 m eq_refl IH). lia.
        * left. eapply dep_step; eauto.
      + exfalso. rewrite upk_neq in Hc by auto. rewrite Hk in Hc. destruct Hc.
  Qed.

  Lemma ps_add_at s prev d k d1 x :
    PS n0 d0 k0 b bot s prev d k -> added d d1 x ->
    (forall t, text_of d1 x = Some t -> normP t) ->
    exists k', (k' = upk k (curk b s) (k (curk b s) ++ [x]) /\ curk b s <> Par x /\
       same_data d1 (update_refs x prev s d1)) /\ PS n0 d0 k0 b bot s x (update_refs x prev s d1) k' /\
      last_error (k' (curk b s)) = Some x /\ k' (Par x) = [] /\
      (forall tag, tag_name d1 x = Some tag -> tag_name (update_refs x prev s d1) x = Some tag) /\
      n0 <= x.
  Proof.
    intros HS A Ht. destruct (added_len _ _ _ A) as [Hlen Hx].
    pose proof (ps_w _ _ _ _ _ _ _ _ _ HS) as P. destruct P.
    destruct pw_good0 as [I R T].
    destruct (added_inv _ _ _ _ I A) as [I1 F1].
    assert (Hn0 : n0 <= x) by lia.
    assert (Hfr : forall p tag, In (p, tag) s -> p < x).
    { intros p tag Hin. rewrite Hx.
      eapply (linked_frame (length (nodes d)) k n0 b bot s p tag); eauto;
        [apply (inv_kw _ _ I)|apply (inv_len _ _ I)|apply (ps_linked _ _ _ _ _ _ _ _ _ HS)]. }
    destruct (update_refs_ok d1 k n0 b bot s prev x I1 M
                (ps_linked _ _ _ _ _ _ _ _ _ HS) (ps_prev _ _ _ _ _ _ _ _ _ HS) F1 Hn0 Hfr)
      as [I2 D2].
    set (d2 := update_refs x prev s d1) in *.
    set (q := curk b s) in *. set (k2 := upk k q (k q ++ [x])) in *.
    destruct F1 as (Fx & Ffree & Fpc & Fk).
    assert (Hlen2 : length (nodes d2) = S x).
    { rewrite (same_data_nodes _ _ D2). auto. }
    assert (Hqx : q <> Par x).
    { unfold q. destruct s as [|[p tag] s']; simpl.
      - destruct M as [(-> & _)|(-> & _)]; try congruence. intros E. injection E. lia.
      - intros E. injection E as ->. specialize (Hfr x tag (or_introl eq_refl)). lia. }
    assert (Hcont : forall i, i < length (nodes d) -> same_content d d2 i).
    { intros i Hi. eapply same_content_trans; [|apply same_data_content; eauto].
      apply added_content with (x := x); auto. lia. }
    assert (Hcx : same_content d1 d2 x) by (apply same_data_content; auto).
    assert (Hout : forall i, S x <= i -> text_of d2 i = None).
    { intros i Hi. unfold text_of.
      rewrite (proj2 (nth_error_None (nodes d2) i)); auto. lia. }
    exists k2. split; [split; [reflexivity|split; [exact Hqx|exact D2]]|].
    split; [|split; [|split; [|split]]]; auto.
    - constructor.
      + constructor.
        * constructor; auto.
          -- destruct (same_data_added _ _ _ _ A D2); auto.
          -- destruct A as (_ & _ & _ & _ & (n & E & Hid & Hpay & Hlive) & _).
             assert (Hk2 : forall q' c, In c (k2 q') ->
                       In c (k q') /\ c < length (nodes d) \/ c = x).
             { intros q' c Hc. unfold k2, upk in Hc. destruct (key_dec q q') as [<-|].
               - apply in_app_or in Hc as [Hc|[<-|[]]]; auto. left. split; auto.
                 eapply (kw_bound _ _ (inv_kw _ _ I)); eauto.
               - left. split; auto. eapply (kw_bound _ _ (inv_kw _ _ I)); eauto. }
             eapply (TyInv_push d k k2 n x d2); auto.
             ++ apply (inv_len _ _ I).
             ++ rewrite (same_data_nodes _ _ D2). auto.
        * assert (W1 : kw (S x) k).
          { eapply kw_mono; [apply (inv_kw _ _ I)|lia]. }
          assert (W2 : kw (S x) k2) by (rewrite <- Hlen2; apply (inv_kw _ _ I2)).
          rewrite Hlen2.
          pose proof (rightmost (S x) k W1 n0 b bot M s x Fk W2
                     (ps_linked _ _ _ _ _ _ _ _ _ HS)) as RM.
          fold q in RM. fold k2 in RM. rewrite RM.
          rewrite (pres_mono (length (nodes d))), pw_pre0;
            [|apply (inv_kw _ _ I)|lia].
          rewrite <- Hx. replace (S x - n0) with (S (x - n0)) by lia.
          rewrite seq_S. f_equal. f_equal. lia.
        * lia.
        * intros q' Hq' Ho. unfold k2. rewrite upk_neq; [auto|].
          intros E. subst q'. unfold q in Ho, Hq'. destruct s as [|[p tag] s'].
          { simpl in Hq'. congruence. }
          simpl in Ho, Hq'.
          destruct (ps_frames _ _ _ _ _ _ _ _ _ HS p tag (or_introl eq_refl)) as [Hb|[Hge _]];
            [|lia].
          destruct M as [(-> & -> & _)|(_ & -> & _)]; simpl in Hb; [|tauto].
          destruct Hb as [Hb|[]]. injection Hb as <- <-. congruence.
        * intros p Hp Hne.
          assert (Hpx : p < x).
          { destruct (Nat.lt_trichotomy p x) as [|[->|Hgt]]; auto; exfalso; apply Hne.
            - unfold k2. rewrite upk_neq by auto. auto.
            - eapply par_empty; [exact I2|left; lia]. }
          assert (Hs : tag_name d2 p = tag_name d p).
          { apply content_parts. apply Hcont. lia. }
          rewrite Hs. unfold k2, upk in Hne. destruct (key_dec q (Par p)) as [E|].
          -- unfold q in E. destruct s as [|[p' tag] s']; simpl in E.
             ++ destruct M as [(-> & _ & ?)|(-> & _)]; [|discriminate].
                injection E as <-. lia.
             ++ injection E as ->.
                destruct (ps_frames _ _ _ _ _ _ _ _ _ HS p tag (or_introl eq_refl))
                  as [Hb|(Hge & Htn & Hl)]; [|eauto].
                destruct M as [(-> & -> & ?)|(_ & -> & _)]; simpl in Hb; [|tauto].
                destruct Hb as [Hb|[]]. injection Hb as <- <-. lia.
          -- auto.
        * intros i t Hi Hti. destruct (Nat.lt_trichotomy i x) as [Hlt|[->|Hgt]].
          -- apply (pw_text0 i); auto. rewrite <- Hti. symmetry.
             apply content_parts. apply Hcont. lia.
          -- apply Ht. rewrite <- Hti. symmetry. apply content_parts. auto.
          -- rewrite Hout in Hti by lia. discriminate.
        * eapply keeps_step; eauto.
      + apply linked_upk; auto.
        * apply (ps_linked _ _ _ _ _ _ _ _ _ HS).
        * apply (kw_nodup _ _ (inv_kw _ _ I)).
        * intros q' c Hc. apply (kw_order _ _ (inv_kw _ _ I)) in Hc. lia.
      + right. unfold k2. fold q. rewrite upk_eq. apply last_error_snoc.
      + intros p tag Hin. destruct (ps_frames _ _ _ _ _ _ _ _ _ HS p tag Hin)
          as [Hb|(Hge & Htn & Hl)]; auto. right. split; auto. split; auto.
        rewrite <- Htn. apply content_parts, Hcont. specialize (Hfr p tag Hin). lia.
      + apply (ps_depth _ _ _ _ _ _ _ _ _ HS).
      + intros y m Hy. apply (dep_upk (length (nodes d)) k s x) in Hy; auto.
        * destruct Hy as [Hy|[-> Hy]]; [eapply (ps_bound _ _ _ _ _ _ _ _ _ HS); eauto|].
          pose proof (ps_depth _ _ _ _ _ _ _ _ _ HS). lia.
        * apply (inv_kw _ _ I).
        * apply (ps_linked _ _ _ _ _ _ _ _ _ HS).
    - unfold k2. rewrite upk_eq. apply last_error_snoc.
    - unfold k2. rewrite upk_neq by auto. auto.
    - intros tag Htag. rewrite <- Htag. apply content_parts. auto.
  Qed.

  Lemma ps_add s prev d k d1 x :
    PS n0 d0 k0 b bot s prev d k -> added d d1 x ->
    (forall t, text_of d1 x = Some t -> normP t) ->
    exists k', PS n0 d0 k0 b bot s x (update_refs x prev s d1) k' /\
      last_error (k' (curk b s)) = Some x /\ k' (Par x) = [] /\
      (forall tag, tag_name d1 x = Some tag -> tag_name (update_refs x prev s d1) x = Some tag) /\
      n0 <= x.
  Proof.
    intros HS A Ht. destruct (ps_add_at s prev d k d1 x HS A Ht) as (k' & _ & H). eauto.
  Qed.

  Lemma ps_push s d k x tag :
    PS n0 d0 k0 b bot s x d k -> last_error (k (curk b s)) = Some x -> k (Par x) = [] ->
    n0 <= x -> tag_name d x = Some tag -> ~ leaf_tag tag -> length s < max_depth ->
    PS n0 d0 k0 b bot ((x, tag) :: s) x d k.
  Proof.
    intros [P L V F D DB] Hl Hk Hn Ht Hlf Hd. constructor; auto.
    - constructor; auto.
    - left. simpl. auto.
    - intros p tag' [E|Hin]; auto. injection E as <- <-. auto.
  Qed.

  Lemma ps_pop s d k x tag prev :
    PS n0 d0 k0 b bot ((x, tag) :: s) prev d k -> length bot < length ((x, tag) :: s) ->
    PS n0 d0 k0 b bot s x d k.
  Proof.
    intros [P L V F D DB] Hlen. inversion L as [E|p' tag' s' Hl L' E]; subst.
    - exfalso. apply Nat.lt_irrefl in Hlen. exact Hlen.
    - constructor; auto.
      + right. auto.
      + intros p tag0 Hin. apply F. simpl; auto.
      + simpl in D. lia.
  Qed.

  Context (t : bytes) (below : option bytes).
  Context (Hbelow : bot <> [] \/ below <> None).
  Let N := ends_quote t.

  Lemma linked_nonempty k s : linked b bot k s -> s = [] -> bot = [].
  Proof. intros L ->. inversion L; auto. Qed.

  (** Result of one iteration. *)
  Definition step_post (i : nat) (r : option (nat * nat * list frame) * dom) : Prop :=
    match r with
    | (None, d') => exists k', PW n0 d0 k0 b d' k'
    | (Some (j, prev', s'), d') =>
        i < j <= S (length t) /\ exists k', PS n0 d0 k0 b bot s' prev' d' k'
    end.

  Lemma text_step i j0 prev s d k :
    PS n0 d0 k0 b bot s prev d k ->
    i <= j0 <= S i -> (j0 = i -> i < length t) ->
    (j0 = i -> nth_error t i <> Some cLT) ->
    ((forall c, nth_error t j0 = Some c -> is_blank c = false) \/
     (0 < j0 /\ nth_error t (j0 - 1) = Some cLT)) ->
    j0 <= S (length t) ->
    safe N (step_post i)
      (let* '(id, j, d) := parse_text_node t j0 (containing_tag s) d in
       Ok (Some (j, id, s), update_refs id prev s d)).
  Proof.
    intros HS Hj Hlt Hne Hpre Hle.
    eapply safe_bind; [apply parse_text_node_ok; auto|].
    intros [[id j] d1] (J1 & J2 & txt & Hn & A).
    assert (R : RegInv d) by apply HS.
    destruct (ps_add s prev d k d1 id HS (text_added_added _ _ _ _ R A)) as (k' & S' & _).
    { intros t' Ht'. destruct (text_added_text _ _ _ _ A) as [E _].
      rewrite E in Ht'. injection Ht' as <-. exact Hn. }
    simpl. split; eauto.
    destruct (Nat.eq_dec j0 i) as [->|]; [|lia].
    destruct (nth_error t i) as [c|] eqn:Ec.
    - specialize (J2 c eq_refl). split; [|lia]. apply J2. intros ->. exact (Hne eq_refl eq_refl).
    - apply nth_error_None in Ec. specialize (Hlt eq_refl). lia.
  Qed.

  Lemma parse_step_ok i prev s d k :
    PS n0 d0 k0 b bot s prev d k -> i < length t ->
    (forall c, nth_error t i = Some c -> is_blank c = false) ->
    safe N (step_post i) (parse_step below t (length bot) i prev s d).
  Proof.
    intros HS Hi Hnb. unfold parse_step.
    eapply safe_bind; [apply safe_get_char; auto|]. intros c Hc. cbv beta in Hc.
    destruct (N.eqb_spec c cLT) as [->|Hne].
    2:{ apply (text_step i i prev s d k); auto; try lia. intros _. congruence. }
    eapply safe_bind; [apply is_comment_ok|]. intros cm Hcm. cbv beta in Hcm. destruct cm.
    { eapply safe_bind; [apply skip_comment_ok; auto|]. intros j [Hj1 Hj2]. simpl.
      split; [lia|]. eauto. }
    eapply (safe_bind _ (fun _ => True)).
    { unfold top_tag. destruct s as [|[p tag] s']; simpl; auto.
      pose proof (linked_nonempty k [] (ps_linked _ _ _ _ _ _ _ _ _ HS) eq_refl) as Hb.
      destruct below; simpl; auto. destruct Hbelow; congruence. }
    intros tt _. eapply safe_bind; [apply is_end_tag_ok|]. intros e _. destruct e.
    { assert (Hs : exists prev' s' k', (if length bot <? length s
                     then match s with
                          | (id, _) :: s' => (id, s')
                          | [] => (prev, s) end
                     else (prev, s)) = (prev', s') /\ PS n0 d0 k0 b bot s' prev' d k').
      { destruct (Nat.ltb_spec (length bot) (length s)) as [Hl|]; eauto.
        destruct s as [|[p tag] s']; eauto. exists p, s', k. split; auto.
        eapply ps_pop; eauto. }
      destruct Hs as (prev' & s' & k' & -> & S').
      eapply safe_bind; [apply safe_scan|]. intros j (J1 & J2 & J3 & J4). simpl.
      split; [lia|]. eauto. }
    destruct (is_alpha (current_char t (S i)) || (current_char t (S i) =? cBANG)%N) eqn:Ea.
    - assert (Hch : exists ch, nth_error t (S i) = Some ch /\
                current_char t (S i) = ch /\ (is_alpha ch = true \/ ch = cBANG)).
      { unfold current_char in *. destruct (nth_error t (S i)) as [ch|]; [|discriminate].
        exists ch. split; auto. split; auto. apply orb_true_iff in Ea as [H|H]; auto.
        apply N.eqb_eq in H. auto. }
      destruct Hch as (ch & Hch & -> & Hst).
      assert (R : RegInv d) by apply HS.
      eapply safe_bind; [apply (parse_document_node_ok t (S i) d ch R Hch Hst)|].
      intros [[[[id can] tag] j] d1] (J1 & Hcan & bs & ps & A).
      destruct (elem_added_tag _ _ _ _ _ _ A) as (Htag & Htxt & _).
      destruct (ps_add s prev d k d1 id HS (elem_added_added _ _ _ _ _ _ A))
        as (k' & S' & Hl & Hk & Htg & Hn).
      { intros t' Ht'. congruence. }
      destruct can.
      + destruct (Nat.leb_spec max_depth (length s)).
        * simpl. exists k'. apply S'.
        * simpl. split; [lia|]. exists k'. apply ps_push; auto.
      + simpl. split; [lia|]. eauto.
    - apply (text_step i (S i) prev s d k); auto; try lia.
      right. split; [lia|]. simpl. now rewrite Nat.sub_0_r.
  Qed.

  Definition loop_post (r : bool * dom) : Prop :=
    let '(ok, d') := r in
    exists k', PW n0 d0 k0 b d' k' /\
      (ok = true -> exists s prev, PS n0 d0 k0 b bot s prev d' k').

  Lemma parse_loop_ok fuel : forall i prev s d k,
    PS n0 d0 k0 b bot s prev d k -> length t - i < fuel ->
    (forall c, nth_error t i = Some c -> is_blank c = false) ->
    safe N loop_post (parse_loop fuel below t (length bot) i prev s d).
  Proof.
    induction fuel as [|f IH]; intros i prev s d k HS Hf Hnb; [lia|].
    cbn [parse_loop]. destruct (Nat.ltb_spec i (length t)).
    - eapply safe_bind; [eapply parse_step_ok; eauto|].
      intros [[[[j prev'] s']|] d']; simpl.
      + intros [Hj [k' S']].
        eapply safe_bind; [apply safe_skip_space|]. intros j' (K1 & K2 & K3 & K4).
        apply (IH j' prev' s' d' k'); auto. lia.
      + intros [k' P']. exists k'. split; auto. discriminate.
    - simpl. exists k. split; [apply HS|]. eauto.
  Qed.

  Lemma parse_ok prev d k :
    PS n0 d0 k0 b bot bot prev d k ->
    safe N loop_post (parse below t prev bot d).
  Proof.
    intros HS. unfold parse. eapply safe_bind; [apply safe_skip_space|].
    intros j (K1 & K2 & K3 & K4). eapply parse_loop_ok; eauto. lia.
  Qed.
End Step.

(** ** The two entry points *)
Lemma ps_root : PS 2 empty_dom no_kids (Par 1) [(1, [])] [(1, [])] 1 empty_dom no_kids.
Proof.
  constructor.
  - constructor; auto.
    + apply Good_empty.
    + unfold no_kids. intros p _ H. congruence.
    + intros i s Hi H. unfold text_of in H.
      destruct i as [|[|[|i]]]; simpl in H; try lia; discriminate.
    + apply keeps_refl.
  - constructor.
  - left. split; reflexivity.
  - intros p tag H. left. exact H.
  - apply Nat.leb_le. reflexivity.
  - intros x m H. exfalso. destruct H as [x []|p c m [] _].
Qed.

Lemma ps_frag d k :
  Good d k -> PS (length (nodes d)) d k (Flo (length (nodes d))) [] [] 0 d k.
Proof.
  intros G. pose proof (g_inv _ _ G) as I.
  constructor.
  - constructor; auto.
    + rewrite (flo_empty d k) by auto. rewrite Nat.sub_diag. reflexivity.
    + intros p Hp H. exfalso. apply H. eapply par_empty; eauto.
    + intros i s Hi H. unfold text_of in H.
      rewrite (proj2 (nth_error_None (nodes d) i)) in H by auto. discriminate.
    + apply keeps_refl.
  - constructor.
  - left. simpl. split; auto. eapply flo_empty; eauto.
  - intros p tag [].
  - simpl. lia.
  - intros x m H. exfalso. induction H as [x H|p c m H D IH]; auto.
    rewrite (flo_empty d k) in H by auto. destruct H.
Qed.

Lemma parse_root_ok t :
  safe (ends_quote t) (loop_post 2 empty_dom no_kids (Par 1) [(1, [])])
       (parse_root t empty_dom).
Proof.
  unfold parse_root. eapply parse_ok.
  - left. auto.
  - left. discriminate.
  - apply ps_root.
Qed.

Lemma parse_extra_ok t bl d k :
  Good d k ->
  safe (ends_quote t)
       (loop_post (length (nodes d)) d k (Flo (length (nodes d))) [])
       (parse_extra (Some bl) t d).
Proof.
  intros G. unfold parse_extra. eapply parse_ok.
  - right. repeat split. apply (inv_len _ _ (g_inv _ _ G)).
  - right. discriminate.
  - apply ps_frag; auto.
Qed.

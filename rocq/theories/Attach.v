(** * Creating nodes and attaching chains. *)
From Coq Require Import List NArith Arith Bool Lia.
From Verif Require Import Base TrieModel DomModel ParserModel EditModel DomSpec
  Lemmas Tables Inv Surgery.
Import ListNotations.
Local Open Scope nat_scope.

(** ** Creation *)
Lemma Inv_push_node d k n :
  Inv d k -> n_id n = length (nodes d) -> Inv (push_node d n) k.
Proof.
  intros I Hn. destruct I as [H1 H2 H3 H4 H5 H6].
  constructor; simpl; auto; rewrite ?app_length; simpl; try lia.
  - intros i m Hm. destruct (Nat.lt_ge_cases i (length (nodes d))).
    + rewrite nth_error_app1 in Hm by auto. auto.
    + rewrite nth_error_app2 in Hm by auto.
      destruct (i - length (nodes d)) as [|j] eqn:E; simpl in Hm.
      * injection Hm as <-. lia.
      * destruct j; discriminate.
  - destruct H5 as [P1 P2 P3 P4]. constructor; auto.
    intros a b H. apply P2 in H. lia.
  - eapply kw_mono; eauto. lia.
Qed.

Lemma flo_empty d k f : Inv d k -> length (nodes d) <= f -> k (Flo f) = [].
Proof.
  intros I Hf. destruct (k (Flo f)) as [|c l] eqn:E; auto. exfalso.
  assert (H : In c (k (Flo f))) by (rewrite E; simpl; auto).
  pose proof (kw_bound _ _ (inv_kw _ _ I) _ _ H).
  pose proof (kw_flo _ _ (inv_kw _ _ I) _ _ H). lia.
Qed.

Lemma promote d k f x :
  Inv d k -> 2 <= x < length (nodes d) -> (forall q, ~ In x (k q)) ->
  (forall p, ~ In (p, x) (pchilds d)) -> k (Flo f) = [] -> f <= x ->
  Inv d (upk k (Flo f) [x]).
Proof.
  intros I Hx Hfree Hpc Hf Hfx. pose proof (inv_kw _ _ I) as W.
  constructor.
  - apply (inv_ids _ _ I).
  - apply (inv_len _ _ I).
  - eapply tab_ext; [apply (inv_next _ _ I)|]. intros a b.
    rewrite Rn_upk, (Rn_split k (Flo f)), Hf. simpl. intuition discriminate.
  - eapply tab_ext; [apply (inv_first _ _ I)|]. intros a b. unfold Rf.
    rewrite upk_neq by congruence. tauto.
  - destruct (inv_pchild _ _ I) as [P1 P2 P3 P4]. constructor.
    + intros a b H. unfold Rp in H. rewrite upk_neq in H by congruence. auto.
    + auto.
    + auto.
    + intros f' a c H. destruct (Nat.eq_dec f f') as [<-|Hne].
      * rewrite upk_eq in H. destruct H as [<-|[]]. auto.
      * rewrite upk_neq in H by congruence. eauto.
  - apply kw_add; auto.
    + constructor; [simpl; tauto|constructor].
    + intros c [<-|[]]. right. auto.
Qed.

Lemma fresh_pc d k p : Inv d k -> ~ In (p, length (nodes d)) (pchilds d).
Proof.
  intros I H. apply (pc_nz _ _ _ (inv_pchild _ _ I)) in H.
  pose proof (inv_len _ _ I). lia.
Qed.

(** A freshly created node, as a floating chain of its own. *)
Lemma fresh_float d k n :
  Inv d k -> n_id n = length (nodes d) ->
  Inv (push_node d n) (upk k (Flo (length (nodes d))) [length (nodes d)]).
Proof.
  intros I Hn. pose proof (inv_len _ _ I).
  apply promote; simpl; auto.
  - apply Inv_push_node; auto.
  - rewrite app_length. simpl. lia.
  - intros q. now apply fresh_not_in.
  - intros p. eapply fresh_pc; eauto.
  - eapply flo_empty; eauto.
Qed.

(** ** Sibling chains as the user sees them *)
Lemma sibs_at d k q l1 l2 :
  Inv d k -> k q = l1 ++ l2 -> sibs d (hd 0 l2) l2.
Proof.
  intros I. revert l1; induction l2 as [|c l2 IH]; intros l1 E.
  - constructor.
  - simpl. constructor.
    + eapply (k_nz I q). rewrite E. apply in_elt.
    + rewrite (get_next_at I q l1 c l2 E).
      replace (match l2 with [] => 0 | b :: _ => b end) with (hd 0 l2)
        by (destruct l2; reflexivity).
      apply (IH (l1 ++ [c])). now rewrite <- app_assoc.
Qed.

Lemma sibs_nexts d d' c l : nexts d' = nexts d -> sibs d c l -> sibs d' c l.
Proof.
  intros E. induction 1; constructor; auto. unfold get_next, next_idx in *.
  now rewrite E.
Qed.

Lemma sibs_fun d c l l' : sibs d c l -> sibs d c l' -> l = l'.
Proof.
  intros H; revert l'; induction H; intros l' H'; inversion H'; subst; auto;
    try congruence. f_equal. auto.
Qed.

Lemma children_at d k p :
  Inv d k -> p <> 0 -> children d p (k (Par p)).
Proof.
  intros I Hp. unfold children. rewrite (get_first_child_at I p Hp).
  replace (match k (Par p) with [] => 0 | c :: _ => c end) with (hd 0 (k (Par p)))
    by (destruct (k (Par p)); reflexivity).
  apply (sibs_at d k (Par p) []); auto.
Qed.

Lemma children_iff d k p l :
  Inv d k -> p <> 0 -> (children d p l <-> l = k (Par p)).
Proof.
  intros I Hp. split.
  - intros H. eapply sibs_fun; [exact H|]. now apply children_at.
  - intros ->. now apply children_at.
Qed.

Lemma attached_iff d k n :
  Inv d k -> (attached d n <-> exists p, In n (k (Par p))).
Proof.
  intros I. split.
  - intros (p & l & Hp & Hc & Hi). exists p.
    apply (children_iff d k p l I Hp) in Hc. now subst.
  - intros [p H]. exists p, (k (Par p)).
    pose proof (kw_order _ _ (inv_kw _ _ I) _ _ H).
    split; [lia|]. split; auto. apply children_at; auto. lia.
Qed.

(** ** Registering a chain with a parent *)
Lemma connect_loop d p c s fuel :
  sibs d c s -> length s <= fuel ->
  connect_others_loop fuel p c d
  = Ok (set_pchilds d (pchilds d ++ map (pair p) s)).
Proof.
  intros H; revert d c fuel H. induction s as [|x s IH]; intros d c fuel H Hf;
    inversion H; subst.
  - simpl. rewrite app_nil_r. destruct fuel; simpl; destruct d; reflexivity.
  - destruct fuel as [|fuel]; [simpl in Hf; lia|].
    cbn [connect_others_loop].
    destruct (Nat.ltb_spec 0 x); [|lia].
    change (get_next x (push_pchild d (p, x))) with (get_next x d).
    rewrite (IH (push_pchild d (p, x)) (get_next x d) fuel).
    + unfold push_pchild, set_pchilds. simpl. rewrite <- app_assoc. reflexivity.
    + eapply sibs_nexts; [|exact H4]. reflexivity.
    + simpl in Hf. lia.
Qed.

Lemma pc_change n l l' k k' p f :
  kw n k -> pc_ok n l k ->
  (forall c, In c (k (Flo f)) -> 1 <= p < c) ->
  (forall e, In e l' -> In e l \/
      exists c, e = (p, c) /\ (In c (k (Flo f)) \/ In c (k (Par p)))) ->
  (forall a b, In b (k' (Par a)) -> In (a, b) l') ->
  (forall f' c, In c (k' (Flo f')) -> In c (k (Flo f')) /\ ~ In c (k (Flo f))) ->
  pc_ok n l' k'.
Proof.
  intros W [P1 P2 P3 P4] Hp A B C. constructor.
  - exact B.
  - intros a b H. apply A in H as [H|(c & E & H)]; auto.
    injection E as -> ->. right. destruct H as [H|H].
    + pose proof (Hp _ H). pose proof (kw_bound _ _ W _ _ H). lia.
    + pose proof (kw_order _ _ W _ _ H). pose proof (kw_bound _ _ W _ _ H). lia.
  - intros a a' b H H'. apply A in H. apply A in H'.
    destruct H as [H|(c & E & H)], H' as [H'|(c' & E' & H')].
    + eapply P3; eauto.
    + injection E' as -> <-. destruct H' as [H'|H'].
      * destruct (P4 _ _ _ H' H).
      * eapply P3; [exact H|]. apply P1. exact H'.
    + injection E as -> <-. destruct H as [H|H].
      * destruct (P4 _ _ _ H H').
      * eapply P3; [|exact H']. apply P1. exact H.
    + congruence.
  - intros f' a c H H'. apply C in H as [H Hn]. apply A in H' as [H'|(c' & E & H')].
    + eapply P4; eauto.
    + injection E as -> <-. destruct H' as [H'|H']; [auto|].
      assert (Flo f' = Par p) by (eapply (kw_disj _ _ W); eauto). discriminate.
Qed.

(** Moving the chain [Flo f] into the list of [Par p]. *)
Definition splice (k : kids) (f p : nat) (l : list nat) : kids :=
  upk (upk k (Flo f) []) (Par p) l.

Lemma splice_par k f p l : splice k f p l (Par p) = l.
Proof. unfold splice. apply upk_eq. Qed.
Lemma splice_flo k f p l : splice k f p l (Flo f) = [].
Proof. unfold splice. rewrite upk_neq by congruence. apply upk_eq. Qed.
Lemma splice_other k f p l q : q <> Par p -> q <> Flo f -> splice k f p l q = k q.
Proof. intros. unfold splice. rewrite !upk_neq by congruence. reflexivity. Qed.

Lemma kw_splice n k f p l :
  kw n k -> NoDup l -> (forall c, In c (k (Flo f)) -> 1 <= p < c) ->
  (forall c, In c l -> In c (k (Par p)) \/ In c (k (Flo f))) ->
  kw n (splice k f p l).
Proof.
  intros W Hn Hp Hl. unfold splice. apply kw_add; auto.
  - apply kw_add; auto; [constructor|]. intros c [].
  - intros c Hc. rewrite upk_neq by congruence.
    destruct (Hl c Hc) as [H|H]; auto. right. split; [|split].
    + intros q'. destruct (key_dec (Flo f) q') as [<-|Hne].
      * now rewrite upk_eq.
      * rewrite upk_neq by auto. intros H'. apply Hne.
        eapply (kw_disj _ _ W); eauto.
    + eapply (kw_bound _ _ W); eauto.
    + auto.
Qed.

Lemma Rn_splice k f p l a b :
  Rn (splice k f p l) a b <->
  adj a b l \/ exists q, q <> Par p /\ q <> Flo f /\ adj a b (k q).
Proof.
  unfold splice. rewrite Rn_upk. split.
  - intros [H|(q & Hq & H)]; auto. right.
    destruct (key_dec (Flo f) q) as [<-|Hne].
    + rewrite upk_eq in H. destruct H.
    + rewrite upk_neq in H by auto. eauto.
  - intros [H|(q & Hq & Hq2 & H)]; auto. right. exists q. split; auto.
    now rewrite upk_neq by auto.
Qed.

Lemma Rn_split2 k f p a b :
  Rn k a b <-> adj a b (k (Par p)) \/ adj a b (k (Flo f)) \/
               exists q, q <> Par p /\ q <> Flo f /\ adj a b (k q).
Proof.
  unfold Rn. split.
  - intros [q H]. destruct (key_dec q (Par p)) as [->|H1]; auto.
    destruct (key_dec q (Flo f)) as [->|H2]; auto. right; right. eauto.
  - intros [H|[H|(q & _ & _ & H)]]; eauto.
Qed.

Lemma nodup_app {A} (l1 l2 : list A) :
  NoDup l1 -> NoDup l2 -> (forall x, In x l1 -> ~ In x l2) -> NoDup (l1 ++ l2).
Proof.
  intros H1 H2 H. induction H1 as [|x l1 Hx H1 IH]; simpl; auto. constructor.
  - intros Hi. apply in_app_or in Hi as [Hi|Hi]; auto. eapply H; simpl; eauto.
  - apply IH. intros y Hy. apply H. simpl; auto.
Qed.

Lemma nodup_app_inv {A} (l1 l2 : list A) :
  NoDup (l1 ++ l2) -> NoDup l1 /\ NoDup l2 /\ (forall x, In x l1 -> ~ In x l2).
Proof.
  induction l1 as [|x l1 IH]; simpl; intros H.
  - split; [constructor|]. split; auto.
  - inversion H; subst. destruct (IH H3) as (A1 & A2 & A3). split; [|split]; auto.
    + constructor; auto. intros Hi. apply H2, in_or_app; auto.
    + intros y [<-|Hy] Hi; [apply H2, in_or_app; auto|]. eapply A3; eauto.
Qed.

Section Attach.
  Context (d : dom) (k : kids) (I : Inv d k) (p f new : nat) (rest : list nat).
  Context (Hm : k (Flo f) = new :: rest).
  Context (Hp : forall c, In c (k (Flo f)) -> 1 <= p < c).
  Let W := inv_kw _ _ I.

  Lemma att_p : 1 <= p.
  Proof. specialize (Hp new). rewrite Hm in Hp. simpl in Hp. destruct Hp; auto. Qed.

  Lemma att_disj x : In x (k (Par p)) -> ~ In x (k (Flo f)).
  Proof.
    intros H H'. assert (Par p = Flo f) by (eapply (kw_disj _ _ W); eauto).
    discriminate.
  Qed.

  Lemma att_new_nz : new <> 0.
  Proof. apply (k_nz I (Flo f)). rewrite Hm. simpl; auto. Qed.

  Lemma append_refs_full :
    exists d', append_refs p new d = Ok d' /\ same_data d d' /\
      pchilds d' = pchilds d ++ map (pair p) (k (Flo f)) /\
      Inv d' (splice k f p (k (Par p) ++ k (Flo f))).
  Proof.
    pose proof att_p as Hp1. pose proof att_new_nz as Hnz.
    set (k' := splice k f p (k (Par p) ++ k (Flo f))).
    assert (W' : kw (length (nodes d)) k').
    { apply kw_splice; auto.
      - apply nodup_app; try apply (kw_nodup _ _ W). apply att_disj.
      - intros c Hc. apply in_app_or in Hc. exact Hc. }
    assert (RN : forall a b, Rn k' a b <-> Rn k a b \/
               (last_error (k (Par p)) = Some a /\ b = new)).
    { intros a b. unfold k'. rewrite Rn_splice, (Rn_split2 k f p), adj_app, Hm.
      simpl. split; intros H; decompose [or] H; auto 10.
      - destruct H0 as [? E]. injection E as <-. auto.
      - destruct H0 as [? ->]. auto. }
    assert (PC : forall l', (forall e, In e l' <-> In e (pchilds d) \/
                    exists c, e = (p, c) /\ In c (k (Flo f))) ->
                 pc_ok (length (nodes d)) l' k').
    { intros l' Hl. eapply (pc_change _ (pchilds d) l' k k' p f); auto.
      - apply (inv_pchild _ _ I).
      - intros e He. apply Hl in He as [?|(c & ? & ?)]; eauto.
      - intros a b Hb. apply Hl. destruct (Nat.eq_dec a p) as [->|Hne].
        + unfold k' in Hb. rewrite splice_par in Hb.
          apply in_app_or in Hb as [Hb|Hb]; eauto.
          left. apply (pc_in _ _ _ (inv_pchild _ _ I)). exact Hb.
        + unfold k' in Hb. rewrite splice_other in Hb by congruence. left.
          apply (pc_in _ _ _ (inv_pchild _ _ I)). exact Hb.
      - intros f' c Hc. unfold k' in Hc. destruct (Nat.eq_dec f' f) as [->|Hne].
        + rewrite splice_flo in Hc. destruct Hc.
        + rewrite splice_other in Hc by congruence. split; auto.
          intros Hc'. assert (Flo f' = Flo f) by (eapply (kw_disj _ _ W); eauto).
          congruence. }
    assert (PL : forall e, In e ((pchilds d ++ [(p, new)]) ++ map (pair p) rest) <->
                   In e (pchilds d) \/ exists c, e = (p, c) /\ In c (k (Flo f))).
    { intros e. rewrite !in_app_iff, in_map_iff, Hm. simpl. split.
      - intros [[H|[H|[]]]|(c & H & Hc)]; eauto.
      - intros [H|(c & -> & [<-|Hc])]; eauto. }
    unfold append_refs. pose proof (first_at I p ltac:(lia)) as HF.
    destruct (k (Par p)) as [|c0 l] eqn:El.
    - rewrite HF.
      set (d1 := push_pchild (push_first d (p, new)) (p, new)).
      unfold connect_others.
      assert (Hsib : sibs d1 (get_next new d1) rest).
      { change (get_next new d1) with (get_next new d).
        rewrite (get_next_at I (Flo f) [] new rest Hm).
        replace (match rest with [] => 0 | b :: _ => b end) with (hd 0 rest)
          by (destruct rest; reflexivity).
        eapply (sibs_nexts d); [reflexivity|].
        apply (sibs_at d k (Flo f) [new]); auto. }
      rewrite (connect_loop d1 p _ rest); [|exact Hsib|].
      2: { pose proof (chain_length I (Flo f)) as L. rewrite Hm in L. simpl in L.
           change (nexts d1) with (nexts d). lia. }
      eexists. split; [reflexivity|]. split; [reflexivity|].
      split; [simpl; rewrite Hm, <- app_assoc; reflexivity|].
      constructor; simpl; auto; try apply I.
      + eapply tab_ext; [apply (inv_next _ _ I)|]. intros a b. rewrite RN.
        simpl. unfold last_error. simpl. intuition discriminate.
      + eapply tab_ext.
        * eapply (tab_push _ _ p new); [apply (inv_first _ _ I)|lia|auto|].
          unfold Rf. rewrite El. discriminate.
        * intros a b. unfold Rf. destruct (Nat.eq_dec a p) as [->|Hne].
          -- unfold k'. rewrite splice_par, El, Hm. simpl. intuition congruence.
          -- unfold k'. rewrite splice_other by congruence. intuition congruence.
    - destruct HF as (i & HF & Hi). rewrite HF, (at_idx_nth _ _ _ Hi). cbn [snd].
      rewrite (get_last_next_at I (Par p) [] c0 l El). cbn [bind].
      set (la := last l c0).
      assert (Hla : last_error (c0 :: l) = Some la) by (apply last_last; reflexivity).
      assert (Hla_in : In la (k (Par p))) by (rewrite El; apply last_error_in; auto).
      set (d1 := push_pchild (push_next d (la, new)) (p, new)).
      set (d' := set_pchilds d1 (pchilds d1 ++ map (pair p) rest)).
      assert (I' : Inv d' k').
      { constructor; simpl; auto; try apply I.
        - eapply tab_ext.
          + eapply (tab_push _ _ la new); [apply (inv_next _ _ I)| |auto|].
            * eapply (k_nz I (Par p)); eauto.
            * intros [q H]. assert (q = Par p).
              { eapply (kw_disj _ _ W _ _ la); [apply (adj_in _ _ _ H)|auto]. }
              subst q. revert H. apply adj_last_none; [apply (kw_nodup _ _ W)|].
              now rewrite El.
          + intros a b. rewrite RN, Hla. intuition congruence.
        - eapply tab_ext; [apply (inv_first _ _ I)|].
          intros a b. unfold Rf. destruct (Nat.eq_dec a p) as [->|Hne].
          + unfold k'. rewrite splice_par, El. simpl. tauto.
          + unfold k'. rewrite splice_other by congruence. tauto. }
      unfold connect_others.
      assert (Hsib : sibs d1 (get_next new d1) rest).
      { change (get_next new d1) with (get_next new d').
        assert (Ek' : k' (Par p) = (c0 :: l) ++ new :: rest).
        { unfold k'. rewrite splice_par, Hm. reflexivity. }
        rewrite (get_next_at I' (Par p) _ new rest Ek').
        replace (match rest with [] => 0 | b :: _ => b end) with (hd 0 rest)
          by (destruct rest; reflexivity).
        eapply (sibs_nexts d'); [reflexivity|].
        apply (sibs_at d' k' (Par p) ((c0 :: l) ++ [new])); auto.
        rewrite Ek', <- app_assoc. reflexivity. }
      rewrite (connect_loop d1 p _ rest); [|exact Hsib|].
      2: { pose proof (chain_length I (Flo f)) as L. rewrite Hm in L. simpl in L.
           change (nexts d1) with (nexts d ++ [(la, new)]). rewrite app_length. simpl. lia. }
      exists d'. split; [reflexivity|]. split; [reflexivity|].
      split; [simpl; rewrite Hm, <- app_assoc; reflexivity|exact I'].
  Qed.

  Lemma append_refs_ok :
    exists d', append_refs p new d = Ok d' /\ same_data d d' /\
      Inv d' (splice k f p (k (Par p) ++ k (Flo f))).
  Proof. destruct append_refs_full as (d' & A & B & _ & C). eauto. Qed.

  Lemma prepend_refs_full :
    exists d', prepend_refs p new d = Ok d' /\ same_data d d' /\
      pchilds d' = pchilds d ++ map (pair p) (k (Flo f) ++ k (Par p)) /\
      Inv d' (splice k f p (k (Flo f) ++ k (Par p))).
  Proof.
    pose proof att_p as Hp1. pose proof att_new_nz as Hnz.
    set (k' := splice k f p (k (Flo f) ++ k (Par p))).
    assert (W' : kw (length (nodes d)) k').
    { apply kw_splice; auto.
      - apply nodup_app; try apply (kw_nodup _ _ W). intros x H H'.
        exact (att_disj x H' H).
      - intros c Hc. apply in_app_or in Hc. tauto. }
    assert (RN : forall a b, Rn k' a b <-> Rn k a b \/
               (last_error (k (Flo f)) = Some a /\ hd_error (k (Par p)) = Some b)).
    { intros a b. unfold k'. rewrite Rn_splice, (Rn_split2 k f p), adj_app.
      tauto. }
    assert (PC : forall l', (forall e, In e (pchilds d) -> In e l') ->
                 (forall c, In c (k (Flo f)) -> In (p, c) l') ->
                 (forall e, In e l' -> In e (pchilds d) \/
                    exists c, e = (p, c) /\ (In c (k (Flo f)) \/ In c (k (Par p)))) ->
                 pc_ok (length (nodes d)) l' k').
    { intros l' Hl1 Hl2 Hl3. eapply (pc_change _ (pchilds d) l' k k' p f); auto.
      - apply (inv_pchild _ _ I).
      - intros a b Hb. destruct (Nat.eq_dec a p) as [->|Hne].
        + unfold k' in Hb. rewrite splice_par in Hb.
          apply in_app_or in Hb as [Hb|Hb]; auto.
          apply Hl1, (pc_in _ _ _ (inv_pchild _ _ I)). exact Hb.
        + unfold k' in Hb. rewrite splice_other in Hb by congruence.
          apply Hl1, (pc_in _ _ _ (inv_pchild _ _ I)). exact Hb.
      - intros f' c Hc. unfold k' in Hc. destruct (Nat.eq_dec f' f) as [->|Hne].
        + rewrite splice_flo in Hc. destruct Hc.
        + rewrite splice_other in Hc by congruence. split; auto.
          intros Hc'. assert (Flo f' = Flo f) by (eapply (kw_disj _ _ W); eauto).
          congruence. }
    unfold prepend_refs. pose proof (first_at I p ltac:(lia)) as HF.
    destruct (k (Par p)) as [|c0 l] eqn:El.
    - rewrite HF.
      set (d1 := push_pchild (push_first d (p, new)) (p, new)).
      unfold connect_others.
      assert (Hsib : sibs d1 (get_next new d1) rest).
      { change (get_next new d1) with (get_next new d).
        rewrite (get_next_at I (Flo f) [] new rest Hm).
        replace (match rest with [] => 0 | b :: _ => b end) with (hd 0 rest)
          by (destruct rest; reflexivity).
        eapply (sibs_nexts d); [reflexivity|].
        apply (sibs_at d k (Flo f) [new]); auto. }
      rewrite (connect_loop d1 p _ rest); [|exact Hsib|].
      2: { pose proof (chain_length I (Flo f)) as L. rewrite Hm in L. simpl in L.
           change (nexts d1) with (nexts d). lia. }
      eexists. split; [reflexivity|]. split; [reflexivity|].
      split; [simpl; rewrite Hm, <- app_assoc, ?app_nil_r; reflexivity|].
      constructor; simpl; auto; try apply I.
      + eapply tab_ext; [apply (inv_next _ _ I)|]. intros a b. rewrite RN.
        simpl. intuition discriminate.
      + eapply tab_ext.
        * eapply (tab_push _ _ p new); [apply (inv_first _ _ I)|lia|auto|].
          unfold Rf. rewrite El. discriminate.
        * intros a b. unfold Rf. destruct (Nat.eq_dec a p) as [->|Hne].
          -- unfold k'. rewrite splice_par, El, Hm. simpl. intuition congruence.
          -- unfold k'. rewrite splice_other by congruence. intuition congruence.
      + apply PC.
        * intros e He. rewrite !in_app_iff. auto.
        * intros c. rewrite Hm, !in_app_iff, in_map_iff. simpl. intros [<-|Hc]; eauto.
        * intros e. rewrite !in_app_iff, in_map_iff, Hm. simpl.
          intros [[H|[H|[]]]|(c & H & Hc)]; eauto.
          -- right. exists new. auto.
          -- right. exists c. auto.
    - destruct HF as (i & HF & Hi). rewrite HF, (at_idx_nth _ _ _ Hi). cbn [fst snd].
      set (d0 := set_firsts d (upd (firsts d) i (p, new))).
      assert (HL : get_last_next new d0 = get_last_next new d).
      { unfold get_last_next. change (nexts d0) with (nexts d).
        generalize (S (length (nexts d))). intros fuel. generalize new as x.
        induction fuel as [|fuel IH]; intros x; cbn [last_next_loop];
          change (next_idx x d0) with (next_idx x d);
          destruct (next_idx x d); auto. }
      rewrite HL, (get_last_next_at I (Flo f) [] new rest Hm). cbn [bind].
      set (la := last rest new).
      assert (Hla : last_error (k (Flo f)) = Some la)
        by (rewrite Hm; apply last_last; reflexivity).
      assert (Hla_in : In la (k (Flo f))) by (apply last_error_in; auto).
      set (d1 := push_pchild (push_next d0 (la, c0)) (p, new)).
      set (d' := set_pchilds d1 (pchilds d1 ++ map (pair p) (rest ++ c0 :: l))).
      assert (Hc0 : In c0 (k (Par p))) by (rewrite El; simpl; auto).
      assert (I' : Inv d' k').
      { constructor; simpl; auto; try apply I.
        - eapply tab_ext.
          + eapply (tab_push _ _ la c0); [apply (inv_next _ _ I)| | |].
            * eapply (k_nz I (Flo f)); eauto.
            * eapply (k_nz I (Par p)); eauto.
            * intros [q H]. assert (q = Flo f).
              { eapply (kw_disj _ _ W _ _ la); [apply (adj_in _ _ _ H)|auto]. }
              subst q. revert H. apply adj_last_none; [apply (kw_nodup _ _ W)|auto].
          + intros a b. rewrite RN, Hla. simpl. intuition congruence.
        - eapply tab_ext.
          + eapply (tab_set _ _ p c0 p new); eauto; try lia.
            * apply (inv_first _ _ I).
            * unfold Rf. now rewrite El.
            * unfold Rf. rewrite El. simpl. intros E. injection E as ->.
              apply (att_disj new); rewrite ?El, ?Hm; simpl; auto.
          + intros a b. unfold Rf. destruct (Nat.eq_dec a p) as [->|Hne].
            * unfold k'. rewrite splice_par, El, Hm. simpl. intuition congruence.
            * unfold k'. rewrite splice_other by congruence. intuition congruence.
        - apply PC.
          + intros e He. rewrite !in_app_iff. auto.
          + intros c. rewrite Hm, !in_app_iff, in_map_iff. simpl.
            intros [<-|Hc]; [auto|]. right. exists c. rewrite in_app_iff. auto.
          + intros e. rewrite !in_app_iff, in_map_iff, Hm. simpl.
            intros [[H|[H|[]]]|(c & H & Hc)]; eauto.
            * right. exists new. auto.
            * right. exists c. apply in_app_or in Hc. simpl in Hc.
              split; [congruence|tauto]. }
      unfold connect_others.
      assert (Ek' : k' (Par p) = [new] ++ (rest ++ c0 :: l)).
      { unfold k'. rewrite splice_par, Hm. reflexivity. }
      assert (Hsib : sibs d1 (get_next new d1) (rest ++ c0 :: l)).
      { change (get_next new d1) with (get_next new d').
        rewrite (get_next_at I' (Par p) [] new (rest ++ c0 :: l) Ek').
        replace (match rest ++ c0 :: l with [] => 0 | b :: _ => b end)
          with (hd 0 (rest ++ c0 :: l))
          by (destruct rest; reflexivity).
        eapply (sibs_nexts d'); [reflexivity|].
        apply (sibs_at d' k' (Par p) [new]); auto. }
      rewrite (connect_loop d1 p _ (rest ++ c0 :: l)); [|exact Hsib|].
      2: { pose proof (chain_length I' (Par p)) as L. rewrite Ek' in L.
           change (nexts d') with (nexts d1) in L. rewrite app_length in L.
           cbn [length] in L. lia. }
      exists d'. split; [reflexivity|]. split; [reflexivity|].
      split; [simpl; rewrite Hm, <- app_assoc; reflexivity|exact I'].
  Qed.
  Lemma prepend_refs_ok :
    exists d', prepend_refs p new d = Ok d' /\ same_data d d' /\
      Inv d' (splice k f p (k (Flo f) ++ k (Par p))).
  Proof. destruct prepend_refs_full as (d' & A & B & _ & C). eauto. Qed.

End Attach.

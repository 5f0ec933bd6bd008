(** * Single-node editing operations. *)
From Coq Require Import List NArith Arith Bool Lia.
From Verif Require Import Base TrieModel DomModel ParserModel EditModel DomSpec
  Lemmas TrieProofs Tables Inv Surgery Attach Replace Link RegProofs ParseSafe ParseTree
  ParseLoop Walk EditProofs.
Import ListNotations.
Local Open Scope nat_scope.

Lemma filter_all_true {A} (f : A -> bool) l : (forall x, In x l -> f x = true) -> filter f l = l.
Proof. apply filter_all. Qed.

Lemma elem_added_content d d' x tag bs ps :
  RegInv d -> elem_added d d' x tag bs ps ->
  content d' x = (Some TDocument, Some tag, None, bs, ps).
Proof.
  intros R A. destruct (elem_added_tag _ _ _ _ _ _ A) as (H1 & H2 & H3).
  destruct A as (-> & R' & _ & X & _ & be & pe & B1 & B2 & B3 & B4 & B5 & B6).
  unfold content. rewrite H1, H2, H3.
  rewrite (bool_attrs_app d d' _ be R X B1), (attrs_app d d' _ pe R X B2).
  destruct (attrs_fresh d (length (nodes d)) R (le_n _)) as [-> ->]. simpl.
  rewrite !filter_all.
  - rewrite B5, B6. reflexivity.
  - intros e He. rewrite (B4 e He). apply Nat.eqb_refl.
  - intros e He. rewrite (B3 e He). apply Nat.eqb_refl.
Qed.

Lemma text_added_content d d' x s :
  RegInv d -> text_added d d' x s -> text_content d' x s.
Proof.
  intros R A. destruct (text_added_text _ _ _ _ A) as (H1 & H2 & H3).
  destruct A as (-> & ->). unfold text_content, content. rewrite H1, H2, H3.
  unfold bool_attrs, attrs. simpl.
  destruct (attrs_fresh d (length (nodes d)) R (le_n _)) as [E1 E2].
  unfold attrs in E1. unfold bool_attrs in E2. rewrite E1, E2. reflexivity.
Qed.

Lemma flo_nil d k : Good d k -> k (Flo (length (nodes d))) = [].
Proof. intros G. eapply flo_empty; [apply G|]. auto. Qed.

Lemma upk_in k q l q' c :
  In c (upk k q l q') -> In c l \/ In c (k q').
Proof. unfold upk. destruct (key_dec q q') as [<-|]; auto. Qed.

Section New.
  Context (d : dom) (k : kids) (G : Good d k) (d1 : dom) (x : nat) (A : added d d1 x).

  Lemma new_facts : Good d1 (floated k x) /\ k (Flo x) = [] /\ (forall q, ~ In x (k q)) /\
     2 <= x < length (nodes d1) /\ k (Par x) = [] /\ length (nodes d1) = S x /\
     x = length (nodes d).
  Proof.
    destruct (added_good d d1 x k G A) as (G1 & (F1 & F2 & F3 & F4) & I1).
    destruct (added_len _ _ _ A) as [E1 E2].
    split; [exact G1|]. split; [subst x; apply flo_nil; auto|]. split; [auto|].
    split; [lia|]. split; [auto|]. split; [lia|]. lia.
  Qed.

  Lemma attach_append p : 1 <= p < x ->
    exists d2, append_refs p x d1 = Ok d2 /\ same_data d1 d2 /\
      Good d2 (upk k (Par p) (k (Par p) ++ [x])).
  Proof.
    intros Hp. destruct new_facts as (G1 & Hf & _).
    destruct (append_refs_ok d1 (floated k x) (g_inv _ _ G1) p x x [])
      as (d2 & E & D & I2).
    - apply floated_flo.
    - rewrite floated_flo. intros c [<-|[]]. auto.
    - exists d2. split; auto. split; auto.
      apply Good_ext with (k := splice (floated k x) x p (k (Par p) ++ [x])).
      { now apply splice_floated. }
      rewrite floated_par, floated_flo in I2.
      eapply Good_data; eauto. intros q c Hc.
      unfold splice in Hc. apply upk_in in Hc as [Hc|Hc].
      + apply in_app_or in Hc as [Hc|[<-|[]]].
        * exists (Par p). now rewrite floated_par.
        * exists (Flo x). rewrite floated_flo. simpl; auto.
      + apply upk_in in Hc as [[]|Hc]. eauto.
  Qed.

  Lemma attach_prepend p : 1 <= p < x ->
    exists d2, prepend_refs p x d1 = Ok d2 /\ same_data d1 d2 /\
      Good d2 (upk k (Par p) (x :: k (Par p))).
  Proof.
    intros Hp. destruct new_facts as (G1 & Hf & _).
    destruct (prepend_refs_ok d1 (floated k x) (g_inv _ _ G1) p x x [])
      as (d2 & E & D & I2).
    - apply floated_flo.
    - rewrite floated_flo. intros c [<-|[]]. auto.
    - exists d2. split; auto. split; auto.
      apply Good_ext with (k := splice (floated k x) x p (x :: k (Par p))).
      { now apply splice_floated. }
      rewrite floated_par, floated_flo in I2. simpl in I2.
      eapply Good_data; eauto. intros q c Hc.
      unfold splice in Hc. apply upk_in in Hc as [Hc|Hc].
      + destruct Hc as [<-|Hc].
        * exists (Flo x). rewrite floated_flo. simpl; auto.
        * exists (Par p). now rewrite floated_par.
      + apply upk_in in Hc as [[]|Hc]. eauto.
  Qed.

  (** Throwing the new node away again. *)
  Lemma drop_new d2 : Good d2 (floated k x) -> length (nodes d2) = length (nodes d1) ->
    exists d3, remove_node x d2 = Ok d3 /\ Good d3 k /\
      length (nodes d3) = length (nodes d2) /\
      (forall n, n <> x -> same_content d2 d3 n) /\ kind d3 x = Some TRemoved.
  Proof.
    intros G2 Hl. destruct new_facts as (G1 & Hf & Hfree & Hx & Hk & Hl1 & Hxl).
    destruct (remove_node_good d2 (floated k x) x G2) as (d3 & E & G3 & L3 & C3 & R3).
    { exists (Flo x). rewrite floated_flo. simpl; auto. }
    rewrite pre_leaf in * by
      (try apply (inv_kw _ _ (g_inv _ _ G2)); rewrite floated_par; auto).
    exists d3. split; auto. split; [|split; [auto|split]].
    - eapply Good_ext; [|exact G3]. intros q. rewrite cut_one_filter.
      unfold floated, upk. destruct (key_dec (Flo x) q) as [<-|].
      + rewrite Hf. unfold without. simpl. rewrite Nat.eqb_refl. reflexivity.
      + apply without_none. apply Hfree.
    - intros n Hn. apply C3. intros [<-|[]]. congruence.
    - apply R3. simpl; auto.
  Qed.
End New.

(** ** Replacing *)
Lemma replaced_good d d' k k' old n :
  Good d k -> 2 <= old -> nth_error (nodes d) old = Some n -> same_meta d d' ->
  nodes d' = upd (nodes d) old (mkNode old TRemoved (n_pay n)) -> Inv d' k' ->
  (forall q c, In c (k' q) -> c <> old /\ exists q', In c (k q')) ->
  Good d' k'.
Proof.
  intros [I R T] Ho Hn E Nn I' Hk.
  assert (Hs : forall i m, nth_error (nodes d') i = Some m ->
      (i = old /\ m = mkNode old TRemoved (n_pay n)) \/
      (i <> old /\ nth_error (nodes d) i = Some m)).
  { intros i m Hi. rewrite Nn, upd_nth in Hi. destruct (Nat.eqb_spec i old).
    - rewrite Hn in Hi. injection Hi as <-. auto.
    - auto. }
  constructor; auto.
  - destruct R. unfold same_meta in E.
    assert (Hl : length (nodes d') = length (nodes d)) by (rewrite Nn; apply upd_length).
    constructor; try (rewrite E; simpl; rewrite ?Hl; auto).
    intros i m t Hi Ht. destruct (Hs i m Hi) as [[-> ->]|[Hne Hi']].
    + simpl in Ht. eauto.
    + eauto.
  - destruct T. unfold kind in *. constructor; unfold kind.
    + intros i m Hi. destruct (Hs i m Hi) as [[-> ->]|[Hne Hi']]; [exact Logic.I|eauto].
    + rewrite Nn, upd_nth_neq; auto. lia.
    + rewrite Nn, upd_nth_neq; auto. lia.
    + intros i m Hi2 Hi. destruct (Hs i m Hi) as [[-> ->]|[Hne Hi']]; [right; auto|eauto].
    + intros q c m Hc Hi. destruct (Hk q c Hc) as [Hne [q' Hq]].
      destruct (Hs c m Hi) as [[-> ->]|[_ Hi']]; [congruence|eauto].
Qed.

Lemma replaced_content d d' old n i :
  nth_error (nodes d) old = Some n -> same_meta d d' ->
  nodes d' = upd (nodes d) old (mkNode old TRemoved (n_pay n)) ->
  (i <> old -> same_content d d' i) /\
  kind d' old = Some TRemoved.
Proof.
  intros Hn E Nn. split.
  - intros Hi. unfold same_content, content, kind, tag_name, text_of, bool_attrs, attrs.
    rewrite Nn, upd_nth_neq by auto. unfold same_meta in E. rewrite E. reflexivity.
  - unfold kind. rewrite Nn, upd_nth_eq; auto. eapply nth_lt; eauto.
Qed.

(** ** The operations *)
Section Ops.
  Context (d : dom) (k : kids) (G : Good d k).
  Let n := length (nodes d).

  Lemma append_document_node_ok p dn :
    1 <= p < n ->
    safe False (fun r => let '(x, d') := r in
        x = n /\ length (nodes d') = S n /\
        Good d' (upk k (Par p) (k (Par p) ++ [n])) /\ elem_content d' n dn /\
        keeps_but d d' [n])
      (append_document_node p dn d).
  Proof.
    intros Hp. unfold append_document_node.
    eapply safe_bind; [apply parse_document_element_ok; apply G|].
    intros [x d1] A. pose proof (elem_added_added _ _ _ _ _ _ A) as A'.
    destruct (new_facts d k G d1 x A') as (G1 & Hf & Hfree & Hx & Hk & Hl & Hxl).
    destruct (Nat.eqb_spec x 0); [lia|].
    destruct (attach_append d k G d1 x A' p) as (d2 & E & D & G2); [subst n; lia|].
    rewrite E. simpl. fold n in Hxl. subst x. split; auto.
    split; [rewrite (same_data_nodes _ _ D); lia|]. split; auto. split.
    - red. pose proof (same_data_content d1 d2 n D) as C. red in C. rewrite C.
      apply (elem_added_content d d1 n (dn_tag dn)); auto. apply G.
    - intros i Hi. eapply same_content_trans; [|apply same_data_content; exact D].
      eapply added_content_all; eauto; [apply G|]. simpl in Hi. intuition.
  Qed.

  Lemma prepend_document_node_ok p dn :
    1 <= p < n ->
    safe False (fun r => let '(x, d') := r in
        x = n /\ length (nodes d') = S n /\
        Good d' (upk k (Par p) (n :: k (Par p))) /\ elem_content d' n dn /\
        keeps_but d d' [n])
      (prepend_document_node p dn d).
  Proof.
    intros Hp. unfold prepend_document_node.
    eapply safe_bind; [apply parse_document_element_ok; apply G|].
    intros [x d1] A. pose proof (elem_added_added _ _ _ _ _ _ A) as A'.
    destruct (new_facts d k G d1 x A') as (G1 & Hf & Hfree & Hx & Hk & Hl & Hxl).
    destruct (Nat.eqb_spec x 0); [lia|].
    destruct (attach_prepend d k G d1 x A' p) as (d2 & E & D & G2); [subst n; lia|].
    rewrite E. simpl. fold n in Hxl. subst x. split; auto.
    split; [rewrite (same_data_nodes _ _ D); lia|]. split; auto. split.
    - red. pose proof (same_data_content d1 d2 n D) as C. red in C. rewrite C.
      apply (elem_added_content d d1 n (dn_tag dn)); auto. apply G.
    - intros i Hi. eapply same_content_trans; [|apply same_data_content; exact D].
      eapply added_content_all; eauto; [apply G|]. simpl in Hi. intuition.
  Qed.

  (** Text node created, merged into [c], and removed again. *)
  Lemma merge_drop s d1 x c old s' :
    text_added d d1 x s -> text_of d c = Some old ->
    exists d3, remove_node x (text_set d1 c s') = Ok d3 /\ Good d3 k /\
      length (nodes d3) = S n /\ retexted d d3 c s' /\ kind d3 x = Some TRemoved /\
      keeps_but d d3 [c; x].
  Proof.
    intros A Hc. pose proof (text_added_added _ _ _ _ (g_reg _ _ G) A) as A'.
    destruct (new_facts d k G d1 x A') as (G1 & Hf & Hfree & Hx & Hk & Hl & Hxl).
    destruct (text_of_kind _ _ _ Hc) as [Hkc Hlc].
    assert (Hcx : c <> x) by lia.
    pose proof (added_content_all d d1 x c (g_reg _ _ G) A' Hcx) as Hcc.
    destruct (content_parts _ _ _ Hcc) as (K1 & K2 & K3 & K4 & K5).
    destruct (drop_new d k G d1 x A' (text_set d1 c s')) as (d3 & E & G3 & L3 & C3 & R3).
    - apply text_set_good; auto. congruence.
    - unfold text_set. simpl. apply upd_length.
    - exists d3. split; auto. split; auto. split.
      { rewrite L3. unfold text_set. simpl. rewrite upd_length. subst n. lia. }
      split; [|split; auto].
      + destruct (text_set_self d1 c s') as (T1 & T2 & T3 & T4 & T5); [lia|].
        destruct (content_parts _ _ _ (C3 c Hcx)) as (U1 & U2 & U3 & U4 & U5).
        red. rewrite U1, U3, U4, U5, T1, T3, T4, T5, K4, K5. auto.
      + intros i Hi. simpl in Hi.
        assert (i <> c /\ i <> x) as [Hic Hix] by (split; intros <-; tauto).
        eapply same_content_trans; [apply (added_content_all d d1 x i); auto; apply G|].
        eapply same_content_trans; [apply text_set_content; exact Hic|].
        apply C3. auto.
  Qed.

  Lemma last_child_text p c d1 x s :
    text_added d d1 x s -> In c (k (Par p)) ->
    c < n /\ c <> x /\ text_of d1 c = text_of d c.
  Proof.
    intros A Hc. pose proof (text_added_added _ _ _ _ (g_reg _ _ G) A) as A'.
    pose proof (kw_bound _ _ (inv_kw _ _ (g_inv _ _ G)) _ _ Hc) as Hb.
    destruct (added_len _ _ _ A') as [_ Hx]. split; [subst n; lia|]. split; [lia|].
    apply content_parts. eapply added_content_all; eauto; [apply G|lia].
  Qed.

  (** What [appendTextNode] does, by cases on the last child. *)
  Definition text_merge_target (last : option nat) : option (nat * bytes) :=
    match last with
    | Some c => match text_of d c with Some old => Some (c, old) | None => None end
    | None => None
    end.

  Lemma append_text_node_ok p s :
    1 <= p < n ->
    safe False (fun r => let '(x, d') := r in
        length (nodes d') = S n /\
        match text_merge_target (last_error (k (Par p))) with
        | Some (c, old) =>
            x = c /\ Good d' k /\ retexted d d' c (old ++ [cSP] ++ s) /\
            kind d' n = Some TRemoved /\ keeps_but d d' [c; n]
        | None =>
            x = n /\ Good d' (upk k (Par p) (k (Par p) ++ [n])) /\
            text_content d' n s /\ keeps_but d d' [n]
        end)
      (append_text_node p s d).
  Proof.
    intros Hp. unfold append_text_node.
    eapply safe_bind; [apply parse_text_element_ok|].
    intros [x d1] A. pose proof (text_added_added _ _ _ _ (g_reg _ _ G) A) as A'.
    destruct (new_facts d k G d1 x A') as (G1 & Hf & Hfree & Hx & Hk & Hl & Hxl).
    fold n in Hxl. destruct (Nat.eqb_spec x 0); [lia|].
    assert (Happ : safe False (fun r => let '(x, d') := r in
        length (nodes d') = S n /\ x = n /\ Good d' (upk k (Par p) (k (Par p) ++ [n])) /\
        text_content d' n s /\ keeps_but d d' [n])
        (let* d := append_refs p x d1 in Ok (x, d))).
    { destruct (attach_append d k G d1 x A' p) as (d2 & E & D & G2); [subst n; lia|].
      rewrite E. simpl. subst x. split; [rewrite (same_data_nodes _ _ D); lia|].
      split; auto. split; auto. split.
      - red. pose proof (same_data_content d1 d2 n D) as C. red in C. rewrite C.
        apply (text_added_content d); auto. apply G.
      - intros i Hi. eapply same_content_trans; [|apply same_data_content; exact D].
        eapply added_content_all; eauto; [apply G|]. simpl in Hi. intuition. }
    assert (I1 : Inv d1 k) by (apply (added_good d d1 x k G A')).
    rewrite (get_first_child_at I1 p) by lia.
    destruct (k (Par p)) as [|c0 l] eqn:Ek.
    - simpl. exact Happ.
    - assert (Hc0 : c0 <> 0) by (apply (k_nz I1 (Par p)); rewrite Ek; simpl; auto).
      destruct (Nat.ltb_spec 0 c0); [|lia].
      rewrite (get_last_next_at I1 (Par p) [] c0 l Ek). cbn [bind].
      set (c := last l c0).
      assert (Hlast : last_error (c0 :: l) = Some c) by (apply last_last; auto).
      assert (Hin : In c (k (Par p))) by (rewrite Ek; apply last_error_in; auto).
      destruct (last_child_text p c d1 x s A Hin) as (Hcn & Hcx & Htc).
      rewrite Hlast. simpl text_merge_target.
      rewrite (try_merge_ok d1 (floated k x) c x true s G1);
        [|lia|apply (text_added_text _ _ _ _ A)].
      rewrite Htc. destruct (text_of d c) as [old|] eqn:Eold.
      + cbn [bind]. destruct (merge_drop s d1 x c old (old ++ [cSP] ++ s) A Eold)
          as (d3 & E & G3 & L3 & T3 & R3 & C3).
        rewrite E. simpl. split; auto. split; auto. split; auto. split; auto.
        subst x. auto.
      + cbn [bind]. exact Happ.
  Qed.

  Lemma prepend_text_node_ok p s :
    1 <= p < n ->
    safe False (fun r => let '(x, d') := r in
        length (nodes d') = S n /\ x = n /\
        match text_merge_target (hd_error (k (Par p))) with
        | Some (c, old) =>
            Good d' k /\ retexted d d' c (s ++ [cSP] ++ old) /\
            kind d' n = Some TRemoved /\ keeps_but d d' [c; n]
        | None =>
            Good d' (upk k (Par p) (n :: k (Par p))) /\
            text_content d' n s /\ keeps_but d d' [n]
        end)
      (prepend_text_node p s d).
  Proof.
    intros Hp. unfold prepend_text_node.
    eapply safe_bind; [apply parse_text_element_ok|].
    intros [x d1] A. pose proof (text_added_added _ _ _ _ (g_reg _ _ G) A) as A'.
    destruct (new_facts d k G d1 x A') as (G1 & Hf & Hfree & Hx & Hk & Hl & Hxl).
    fold n in Hxl. destruct (Nat.eqb_spec x 0); [lia|].
    assert (Happ : safe False (fun r => let '(x, d') := r in
        length (nodes d') = S n /\ x = n /\ Good d' (upk k (Par p) (n :: k (Par p))) /\
        text_content d' n s /\ keeps_but d d' [n])
        (let* d := prepend_refs p x d1 in Ok (x, d))).
    { destruct (attach_prepend d k G d1 x A' p) as (d2 & E & D & G2); [subst n; lia|].
      rewrite E. simpl. subst x. split; [rewrite (same_data_nodes _ _ D); lia|].
      split; auto. split; auto. split.
      - red. pose proof (same_data_content d1 d2 n D) as C. red in C. rewrite C.
        apply (text_added_content d); auto. apply G.
      - intros i Hi. eapply same_content_trans; [|apply same_data_content; exact D].
        eapply added_content_all; eauto; [apply G|]. simpl in Hi. intuition. }
    assert (I1 : Inv d1 k) by (apply (added_good d d1 x k G A')).
    rewrite (get_first_child_at I1 p) by lia.
    destruct (k (Par p)) as [|c l] eqn:Ek.
    - simpl. exact Happ.
    - assert (Hc0 : c <> 0) by (apply (k_nz I1 (Par p)); rewrite Ek; simpl; auto).
      destruct (Nat.ltb_spec 0 c); [|lia]. simpl hd_error.
      assert (Hin : In c (k (Par p))) by (rewrite Ek; simpl; auto).
      destruct (last_child_text p c d1 x s A Hin) as (Hcn & Hcx & Htc).
      simpl text_merge_target.
      rewrite (try_merge_ok d1 (floated k x) c x false s G1);
        [|lia|apply (text_added_text _ _ _ _ A)].
      rewrite Htc. destruct (text_of d c) as [old|] eqn:Eold.
      + cbn [bind]. destruct (merge_drop s d1 x c old (s ++ [cSP] ++ old) A Eold)
          as (d3 & E & G3 & L3 & T3 & R3 & C3).
        rewrite E. simpl. split; auto. split; auto. split; auto. split; auto.
        subst x. auto.
      + cbn [bind]. exact Happ.
  Qed.

  (** ** Replacement of an attached node *)
  Lemma attach_replace d1 x p old l1 l2 :
    added d d1 x -> k (Par p) = l1 ++ old :: l2 ->
    exists d2, replace_refs old x d1 = Ok d2 /\ length (nodes d2) = S n /\
      Good d2 (upk k (Par p) (l1 ++ x :: l2)) /\
      kind d2 old = Some TRemoved /\
      (forall i, i <> old -> same_content d1 d2 i).
  Proof.
    intros A Ek. destruct (new_facts d k G d1 x A) as (G1 & Hf & Hfree & Hx & Hk & Hl & Hxl).
    fold n in Hxl. pose proof (inv_kw _ _ (g_inv _ _ G)) as W.
    assert (Hin : In old (k (Par p))) by (rewrite Ek; apply in_elt).
    pose proof (kw_bound _ _ W _ _ Hin) as Hb. pose proof (kw_order _ _ W _ _ Hin) as Ho.
    fold n in Hb.
    destruct (nth_error (nodes d1) old) as [m|] eqn:Em.
    2:{ apply nth_error_None in Em. lia. }
    assert (HR : exists d', replace_refs old x d1 = Ok d' /\ same_meta d1 d' /\
      nodes d' = upd (nodes d1) old (mkNode old TRemoved (n_pay m)) /\
      Inv d' (splice (floated k x) x p (l1 ++ floated k x (Flo x) ++ l2))).
    { eapply replace_refs_ok; eauto; try apply (g_inv _ _ G1); try apply floated_flo.
      rewrite floated_flo. intros c [<-|[]]. lia. }
    destruct HR as (d2 & E & Mt & Nn & I2).
    rewrite floated_flo in I2. simpl in I2.
    exists d2. split; auto. split; [rewrite Nn, upd_length; lia|].
    split; [|split].
    - apply Good_ext with (k := splice (floated k x) x p (l1 ++ x :: l2)).
      { now apply splice_floated. }
      eapply (replaced_good d1 d2 (floated k x) _ old m); auto; try lia.
      intros q c Hc. unfold splice in Hc.
      pose proof (kw_nodup _ _ W (Par p)) as Nd. rewrite Ek in Nd.
      apply nodup_mid in Nd as Nm.
      assert (Hxo : x <> old) by lia.
      unfold upk at 1 in Hc. destruct (key_dec (Par p) q) as [<-|Hq].
      + assert (Hc' : c = x \/ (In c (l1 ++ l2))).
        { apply in_app_or in Hc as [Hc|[Hc|Hc]]; auto; right; apply in_or_app; auto. }
        destruct Hc' as [->|Hc'].
        * split; auto. exists (Flo x). rewrite floated_flo. simpl; auto.
        * split; [intros ->; tauto|]. exists (Par p). rewrite floated_par, Ek.
          apply in_app_or in Hc' as [H|H]; apply in_or_app; simpl; auto.
      + unfold upk in Hc. destruct (key_dec (Flo x) q) as [<-|]; [destruct Hc|].
        split; [|eauto]. intros ->. unfold floated, upk in Hc.
        destruct (key_dec (Flo x) q); [congruence|].
        apply Hq. eapply (kw_disj _ _ W); eauto.
    - eapply (replaced_content d1 d2 old m 0); eauto.
    - intros i Hi. apply (replaced_content d1 d2 old m i); auto.
  Qed.

  Lemma replace_with_document_node_ok p old l1 l2 dn :
    k (Par p) = l1 ++ old :: l2 ->
    safe False (fun r => let '(x, d') := r in
        x = n /\ length (nodes d') = S n /\
        Good d' (upk k (Par p) (l1 ++ n :: l2)) /\ elem_content d' n dn /\
        kind d' old = Some TRemoved /\ keeps_but d d' [n; old])
      (replace_with_document_node old dn d).
  Proof.
    intros Ek. unfold replace_with_document_node.
    eapply safe_bind; [apply parse_document_element_ok; apply G|].
    intros [x d1] A. pose proof (elem_added_added _ _ _ _ _ _ A) as A'.
    destruct (new_facts d k G d1 x A') as (G1 & Hf & Hfree & Hx & Hk & Hl & Hxl).
    destruct (Nat.eqb_spec x 0); [lia|].
    destruct (attach_replace d1 x p old l1 l2 A' Ek) as (d2 & E & L2 & G2 & R2 & C2).
    assert (Hox : old <> x).
    { intros ->. apply (Hfree (Par p)). rewrite Ek. apply in_elt. }
    rewrite E. simpl. fold n in Hxl. subst x. split; auto.
    split; auto. split; auto. split; [|split; auto].
    - red. specialize (C2 n ltac:(auto)). red in C2. rewrite C2.
      apply (elem_added_content d d1 n (dn_tag dn)); auto. apply G.
    - intros i Hi. simpl in Hi.
      eapply same_content_trans; [apply (added_content_all d d1 _ i (g_reg _ _ G) A')|apply C2]; intuition.
  Qed.

  (** The text neighbour used by [replaceWithTextNode]: the previous sibling if
      it is text, else the next one. *)
  Definition replace_target (l1 l2 : list nat) (s : bytes) : option (nat * bytes) :=
    match text_merge_target (last_error l1) with
    | Some (c, old) => Some (c, old ++ [cSP] ++ s)
    | None => match text_merge_target (hd_error l2) with
              | Some (c, old) => Some (c, s ++ [cSP] ++ old)
              | None => None
              end
    end.

  Lemma try_merge_both_ok d1 x s p old l1 l2 :
    text_added d d1 x s -> k (Par p) = l1 ++ old :: l2 ->
    try_merge_both old x d1
    = match replace_target l1 l2 s with
      | Some (c, s') => Ok (true, text_set d1 c s')
      | None => Ok (false, d1)
      end /\
    (forall c s', replace_target l1 l2 s = Some (c, s') ->
        In c (k (Par p)) /\ c <> old /\ exists o, text_of d c = Some o).
  Proof.
    intros A Ek. pose proof (text_added_added _ _ _ _ (g_reg _ _ G) A) as A'.
    destruct (new_facts d k G d1 x A') as (G1 & Hf & Hfree & Hx & Hk & Hl & Hxl).
    assert (I1 : Inv d1 k) by (apply (added_good d d1 x k G A')).
    pose proof (kw_nodup _ _ (inv_kw _ _ (g_inv _ _ G)) (Par p)) as Nd. rewrite Ek in Nd.
    apply nodup_mid in Nd as Nm.
    destruct (text_added_text _ _ _ _ A) as (Ht & _ & _).
    assert (Hn : exists nd, nth_error (nodes d1) x = Some nd /\ is_text nd = true /\ n_id nd = x).
    { destruct (nth_error (nodes d1) x) as [nd|] eqn:En.
      - exists nd. destruct (node_text_of d1 (floated k x) x nd s G1 En Ht) as (_ & ? & ?). auto.
      - apply nth_error_None in En. lia. }
    destruct Hn as (nd & En & Hty & Hid).
    unfold try_merge_both, get_node. rewrite En. cbn [bind]. rewrite Hty, Hid.
    assert (HT : forall c, In c (k (Par p)) ->
        forall b, try_merge c x b d1 = match text_of d c with
           | Some o => Ok (true, text_set d1 c (if b then o ++ [cSP] ++ s else s ++ [cSP] ++ o))
           | None => Ok (false, d1) end).
    { intros c Hc b. destruct (last_child_text p c d1 x s A Hc) as (H1 & H2 & H3).
      rewrite (try_merge_ok d1 (floated k x) c x b s G1), H3; auto. lia. }
    pose proof (prev_at I1 (Par p) l1 old l2 Ek) as HPv.
    pose proof (next_at I1 (Par p) l1 old l2 Ek) as HNx.
    assert (Hnx : (match next_idx old d1 with
       | Some j => try_merge (snd (at_idx (nexts d1) j)) x false d1
       | None => Ok (false, d1)
       end) = match text_merge_target (hd_error l2) with
              | Some (c, o) => Ok (true, text_set d1 c (s ++ [cSP] ++ o))
              | None => Ok (false, d1) end).
    { destruct l2 as [|b2 l2].
      - rewrite HNx. reflexivity.
      - destruct HNx as (j & -> & Hj). rewrite (at_idx_nth _ _ _ Hj). simpl.
        rewrite HT by (rewrite Ek; apply in_or_app; simpl; auto).
        destruct (text_of d b2); reflexivity. }
    unfold replace_target. split.
    - destruct (last_error l1) as [a|] eqn:El.
      + destruct HPv as (i & -> & Hi). rewrite (at_idx_nth _ _ _ Hi). simpl fst.
        apply last_error_in in El.
        rewrite HT by (rewrite Ek; apply in_or_app; simpl; auto).
        simpl text_merge_target at 1.
        destruct (text_of d a) as [o|]; cbn [bind]; [reflexivity|].
        rewrite Hnx. destruct (text_merge_target (hd_error l2)) as [[c o]|]; reflexivity.
      + rewrite HPv. simpl text_merge_target at 1.
        rewrite Hnx. destruct (text_merge_target (hd_error l2)) as [[c o]|]; reflexivity.
    - intros c s' H.
      assert (HC : (last_error l1 = Some c \/ hd_error l2 = Some c) /\
                   exists o, text_of d c = Some o).
      { unfold text_merge_target in H.
        destruct (last_error l1) as [a|].
        - destruct (text_of d a) as [o|] eqn:Eo.
          + injection H as -> _. eauto.
          + destruct (hd_error l2) as [b2|]; [|discriminate].
            destruct (text_of d b2) as [o|] eqn:Eo2; [|discriminate].
            injection H as -> _. eauto.
        - destruct (hd_error l2) as [b2|]; [|discriminate].
          destruct (text_of d b2) as [o|] eqn:Eo2; [|discriminate].
          injection H as -> _. eauto. }
      destruct HC as [[Hc|Hc] Ho].
      + apply last_error_in in Hc. split; [rewrite Ek; apply in_or_app; auto|].
        split; auto. intros ->. apply Nm. apply in_or_app; auto.
      + apply hd_error_in in Hc. split; [rewrite Ek; apply in_or_app; simpl; auto|].
        split; auto. intros ->. apply Nm. apply in_or_app; auto.
  Qed.

  Lemma without_notin c l : ~ In c (without c l).
  Proof. intros H. apply without_in in H. tauto. Qed.

  Lemma replace_with_text_node_ok p old l1 l2 s :
    k (Par p) = l1 ++ old :: l2 ->
    let D := pre n k old in
    safe False (fun r => let '(x, d') := r in
        x = n /\ length (nodes d') = S n /\
        match replace_target l1 l2 s with
        | Some (c, s') =>
            Good d' (cut D k) /\ retexted d d' c s' /\ kind d' n = Some TRemoved /\
            (forall i, In i D -> kind d' i = Some TRemoved) /\
            keeps_but d d' (c :: n :: D)
        | None =>
            Good d' (upk k (Par p) (l1 ++ n :: l2)) /\ text_content d' n s /\
            kind d' old = Some TRemoved /\ keeps_but d d' [n; old]
        end)
      (replace_with_text_node old s d).
  Proof.
    intros Ek D. unfold replace_with_text_node.
    eapply safe_bind; [apply parse_text_element_ok|].
    intros [x d1] A. pose proof (text_added_added _ _ _ _ (g_reg _ _ G) A) as A'.
    destruct (new_facts d k G d1 x A') as (G1 & Hf & Hfree & Hx & Hk & Hl & Hxl).
    fold n in Hxl. destruct (Nat.eqb_spec x 0); [lia|].
    destruct (try_merge_both_ok d1 x s p old l1 l2 A Ek) as [E HC]. rewrite E.
    assert (Hin : In old (k (Par p))) by (rewrite Ek; apply in_elt).
    pose proof (kw_bound _ _ (inv_kw _ _ (g_inv _ _ G)) _ _ Hin) as Hb. fold n in Hb.
    destruct (replace_target l1 l2 s) as [[c s']|].
    - cbn [bind]. destruct (HC c s' eq_refl) as (Hc1 & Hc2 & o & Ho).
      destruct (merge_drop s d1 x c o s' A Ho) as (d3 & E3 & G3 & L3 & T3 & R3 & C3).
      rewrite E3. cbn [bind].
      destruct (remove_node_good d3 k old G3 ltac:(eauto)) as (d4 & E4 & G4 & L4 & C4 & R4).
      rewrite L3 in *.
      assert (ED : pre (S n) k old = D).
      { unfold D. apply pre_mono; auto. apply (g_inv _ _ G). }
      rewrite ED in *. rewrite E4. simpl.
      assert (HcD : ~ In c D).
      { intros H. unfold D in H.
        assert (c = old); [|congruence].
        eapply (pre_sibling_q n k (Par p) c old c); eauto; try apply (g_inv _ _ G).
        apply pre_self. apply (g_inv _ _ G). }
      assert (HnD : ~ In n D).
      { intros H. unfold D in H.
        destruct (pre_parent n k old n (inv_kw _ _ (g_inv _ _ G)) H) as [E5|(q & Hq & _)].
        - lia.
        - apply (Hfree (Par q)). now rewrite Hxl. }
      split; auto. split; auto. split; auto. split; [|split; [|split; auto]].
      + destruct T3 as (T1 & T2 & T3 & T4).
        destruct (content_parts _ _ _ (C4 c HcD)) as (U1 & U2 & U3 & U4 & U5).
        red. rewrite U1, U3, U4, U5. auto.
      + destruct (content_parts _ _ _ (C4 n HnD)) as (U1 & _). rewrite U1. subst x. auto.
      + intros i Hi. eapply same_content_trans; [apply C3|apply C4].
        * subst x. simpl in *. tauto.
        * simpl in Hi. tauto.
    - cbn [bind].
      destruct (attach_replace d1 x p old l1 l2 A' Ek) as (d2 & E2 & L2 & G2 & R2 & C2).
      rewrite E2. simpl. subst x. split; auto. split; auto. split; auto. split; [|split; auto].
      + red. specialize (C2 n ltac:(lia)). red in C2. rewrite C2.
        apply (text_added_content d); auto. apply G.
      + intros i Hi. simpl in Hi.
        eapply same_content_trans; [apply (added_content_all d d1 _ i (g_reg _ _ G) A')|apply C2]; intuition.
  Qed.

  (** ** setTextContent *)
  Lemma set_text_content_ok p s :
    1 <= p < n ->
    let D := pres n k (k (Par p)) in
    safe False (fun d' =>
        length (nodes d') = S n /\ Good d' (upk (cut D k) (Par p) [n]) /\
        text_content d' n s /\ (forall i, In i D -> kind d' i = Some TRemoved) /\
        keeps_but d d' (n :: D))
      (set_text_content p s d).
  Proof.
    intros Hp D. unfold set_text_content.
    destruct (remove_children_good d k p G ltac:(lia)) as (d1 & E1 & G1 & L1 & C1 & R1).
    rewrite E1. cbn [bind]. fold n in E1, G1, L1, C1, R1. fold D in G1, C1, R1.
    eapply safe_bind; [apply parse_text_element_ok|].
    intros [x d2] A. pose proof (text_added_added _ _ _ _ (g_reg _ _ G1) A) as A'.
    destruct (new_facts d1 (cut D k) G1 d2 x A') as (G2 & Hf & Hfree & Hx & Hk & Hl & Hxl).
    assert (HDx : ~ In x D).
    { intros H. unfold D in H. apply pres_in in H as (y & Hy & H).
      pose proof (inv_kw _ _ (g_inv _ _ G)) as W.
      destruct (pre_parent _ _ _ _ W H) as [->|(q & Hq & _)].
      - apply (kw_bound _ _ W) in Hy. fold n in Hy. lia.
      - apply (kw_bound _ _ W) in Hq. fold n in Hq. lia. }
    simpl. rewrite L1 in Hxl.
    assert (I2 : Inv d2 (cut D k)) by apply (added_good d1 d2 x (cut D k) G1 A').
    assert (He : cut D k (Par p) = []).
    { destruct (cut D k (Par p)) as [|y l] eqn:E; auto. exfalso.
      assert (H : In y (cut D k (Par p))) by (rewrite E; simpl; auto).
      apply cut_in in H as [H1 H2]. apply H2. unfold D. apply pres_in.
      exists y. split; auto. apply pre_self. apply (g_inv _ _ G). }
    assert (I3 : Inv (push_first (push_pchild d2 (p, x)) (p, x)) (upk (cut D k) (Par p) [x])).
    { destruct (added_good d1 d2 x (cut D k) G1 A') as (_ & (F1 & F2 & F3 & F4) & _).
      apply link_first; auto. lia. }
    set (d3 := push_first (push_pchild d2 (p, x)) (p, x)) in *.
    change (push_pchild (push_first d2 (p, x)) (p, x)) with d3.
    assert (D3 : same_data d2 d3) by (unfold d3; destruct d2; reflexivity).
    split; [unfold d3; simpl; lia|]. split; [|split; [|split]].
    - rewrite <- Hxl. eapply Good_data; [exact G2|exact D3|exact I3|].
      intros q c Hc. apply upk_in in Hc as [[<-|[]]|Hc].
      + exists (Flo x). rewrite floated_flo. simpl; auto.
      + exists q. unfold floated, upk. destruct (key_dec (Flo x) q) as [<-|]; auto.
        rewrite Hf in Hc. destruct Hc.
    - rewrite <- Hxl. red. pose proof (same_data_content d2 d3 x D3) as C. red in C. rewrite C.
      apply (text_added_content d1); auto. apply G1.
    - intros i Hi. rewrite <- (R1 i Hi).
      assert (Hix : i <> x) by (intros ->; auto).
      apply (content_parts d1 d3 i). eapply same_content_trans; [|apply same_data_content; exact D3].
      eapply added_content_all; eauto. apply G1.
    - intros i Hi. simpl in Hi.
      eapply same_content_trans; [apply C1; tauto|].
      eapply same_content_trans; [|apply same_data_content; exact D3].
      eapply added_content_all; eauto; [apply G1|]. intros ->. apply Hi. left. lia.
  Qed.
End Ops.

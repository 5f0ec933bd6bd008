(** * Effects of the editing operations on child lists and contents. *)
From Coq Require Import List NArith Arith Bool Lia.
From Verif Require Import Base TrieModel DomModel ParserModel EditModel DomSpec
  Lemmas TrieProofs Tables Inv Surgery Attach Replace Link RegProofs ParseSafe ParseTree
  ParseLoop Walk.
Import ListNotations.
Local Open Scope nat_scope.

Lemma children_zero d k l : Inv d k -> (children d 0 l <-> l = []).
Proof.
  intros I. assert (E : get_first_child 0 d = 0).
  { unfold get_first_child, first_idx.
    destruct (find_idx (fun e => fst e =? 0) (firsts d)) as [i|] eqn:F; auto.
    apply find_idx_some in F as ([a b] & Hn & He & _). simpl in He.
    apply Nat.eqb_eq in He. subst a. rewrite (at_idx_nth _ _ _ Hn). simpl.
    apply nth_error_In in Hn. destruct (inv_first _ _ I) as (H1 & H2 & _).
    destruct (H1 _ _ Hn) as [[_ ->]|R]; auto. apply H2 in R. tauto. }
  unfold children. rewrite E. split.
  - intros H. inversion H; auto. congruence.
  - intros ->. constructor.
Qed.

Lemma children_k d k p l : Inv d k -> (children d p l <-> l = k (Par p)).
Proof.
  intros I. destruct (Nat.eq_dec p 0) as [->|Hp].
  - rewrite (children_zero d k l I), (par_empty d k 0 I); [tauto|auto].
  - apply children_iff; auto.
Qed.

Lemma children_same d k d' k' q l :
  Inv d k -> Inv d' k' -> k' (Par q) = k (Par q) ->
  (children d' q l <-> children d q l).
Proof.
  intros I I' E. rewrite (children_k d k q l I), (children_k d' k' q l I'), E. tauto.
Qed.

Lemma added_content_all d d' x n :
  RegInv d -> added d d' x -> n <> x -> same_content d d' n.
Proof.
  intros R A Hn. destruct (Nat.lt_ge_cases n (length (nodes d))) as [Hl|Hl].
  - eapply added_content; eauto.
  - destruct (added_len _ _ _ A) as [E1 E2].
    assert (R' : RegInv d') by apply A.
    unfold same_content, content.
    destruct (attrs_fresh d n R Hl) as [-> ->].
    destruct (attrs_fresh d' n R' ltac:(lia)) as [-> ->].
    unfold kind, tag_name, text_of.
    rewrite (proj2 (nth_error_None (nodes d) n)) by auto.
    rewrite (proj2 (nth_error_None (nodes d') n)) by lia. reflexivity.
Qed.

(** ** Combining invariants *)
Lemma Good_ext d k k' : kext k k' -> Good d k -> Good d k'.
Proof.
  intros E [I R [T1 T2 T3 T4 T5]]. constructor; auto.
  - eapply Inv_ext; eauto.
  - constructor; auto. intros q c n Hc. rewrite <- E in Hc. eauto.
Qed.

Lemma Good_data d d' k k' :
  Good d k -> same_data d d' -> Inv d' k' ->
  (forall q c, In c (k' q) -> exists q', In c (k q')) -> Good d' k'.
Proof.
  intros [I R T] E I' Hk. constructor; auto.
  - eapply same_data_reg; eauto.
  - destruct T. unfold kind in *. constructor;
      unfold kind; rewrite ?(same_data_nodes _ _ E); auto.
    intros q c n Hc Hn. destruct (Hk q c Hc) as [q' Hq]. eauto.
Qed.

Definition floated (k : kids) (x : nat) : kids := upk k (Flo x) [x].

Lemma added_good d d' x k :
  Good d k -> added d d' x -> Good d' (floated k x) /\ fresh d' k x /\ Inv d' k.
Proof.
  intros [I R T] A. destruct (added_inv _ _ _ _ I A) as [I' F].
  destruct (added_len _ _ _ A) as [Hl Hx].
  split; auto. constructor.
  - destruct F as (F1 & F2 & F3 & F4). apply promote; auto.
    apply (flo_empty d k); auto. lia.
  - apply A.
  - destruct A as (_ & _ & _ & _ & (n & E & Hid & Hpay & Hlive) & _).
    eapply (TyInv_push d k _ n x); eauto.
    + apply (inv_len _ _ I).
    + intros q c Hc. unfold floated, upk in Hc. destruct (key_dec (Flo x) q).
      * destruct Hc as [<-|[]]. auto.
      * left. split; auto. eapply (kw_bound _ _ (inv_kw _ _ I)); eauto.
Qed.

Lemma floated_flo k x : floated k x (Flo x) = [x].
Proof. apply upk_eq. Qed.
Lemma floated_par k x p : floated k x (Par p) = k (Par p).
Proof. unfold floated. apply upk_neq. discriminate. Qed.

Lemma splice_floated k x p l :
  k (Flo x) = [] -> kext (splice (floated k x) x p l) (upk k (Par p) l).
Proof.
  intros E q. unfold splice, floated, upk.
  destruct (key_dec (Par p) q); auto.
  destruct (key_dec (Flo x) q) as [<-|]; auto.
Qed.

(** ** Setting the text of a text node *)
Definition text_set (d : dom) (t : nat) (s : bytes) : dom :=
  set_nodes d (upd (nodes d) t (mkNode t TText (PText s))).

Lemma text_set_content d t s n : n <> t -> same_content d (text_set d t s) n.
Proof.
  intros Hn. unfold same_content, content, kind, tag_name, text_of, text_set. simpl.
  rewrite upd_nth_neq by auto. reflexivity.
Qed.

Lemma text_set_self d t s :
  t < length (nodes d) ->
  kind (text_set d t s) t = Some TText /\ tag_name (text_set d t s) t = None /\
  text_of (text_set d t s) t = Some s /\
  bool_attrs (text_set d t s) t = bool_attrs d t /\ attrs (text_set d t s) t = attrs d t.
Proof.
  intros Hn. unfold kind, tag_name, text_of, text_set. simpl.
  rewrite upd_nth_eq by auto. auto.
Qed.

Lemma text_set_good d k t s :
  Good d k -> kind d t = Some TText -> Good (text_set d t s) k.
Proof.
  intros [I R T] Hk. unfold kind in Hk.
  destruct (nth_error (nodes d) t) as [n|] eqn:En; [|discriminate]. injection Hk as Hk.
  constructor.
  - apply Inv_set_node; auto.
  - destruct R. constructor; simpl; auto; try (rewrite upd_length; auto).
    intros i m t' Hi. rewrite upd_nth in Hi. destruct (Nat.eqb_spec i t).
    + rewrite En in Hi. injection Hi as <-. discriminate.
    + eauto.
  - destruct T. unfold kind in *.
    constructor; unfold kind, text_set; cbn [nodes set_nodes].
    + intros i m Hi. rewrite upd_nth in Hi. destruct (Nat.eqb_spec i t).
      * rewrite En in Hi. injection Hi as <-. red. simpl. eauto.
      * eauto.
    + rewrite upd_nth_neq; auto. intros E0. subst t. rewrite En in ty_zero. congruence.
    + rewrite upd_nth_neq; auto. intros E0. subst t. rewrite En in ty_one. congruence.
    + intros i m Hi0 Hi. rewrite upd_nth in Hi. destruct (Nat.eqb_spec i t).
      * rewrite En in Hi. injection Hi as <-. left. right. reflexivity.
      * eauto.
    + intros q c m Hc Hi. rewrite upd_nth in Hi. destruct (Nat.eqb_spec c t).
      * rewrite En in Hi. injection Hi as <-. right. reflexivity.
      * eauto.
Qed.

Lemma text_of_kind d n s : text_of d n = Some s ->
  kind d n = Some TText /\ n < length (nodes d).
Proof.
  unfold text_of, kind. destruct (nth_error (nodes d) n) as [[i ty pay]|] eqn:E; [|discriminate].
  apply nth_lt in E. destruct ty; try discriminate. auto.
Qed.

Lemma is_text_of d k c n :
  Good d k -> nth_error (nodes d) c = Some n ->
  (is_text n = true <-> exists s, text_of d c = Some s).
Proof.
  intros G E. pose proof (ty_pay _ _ (g_ty _ _ G) c n E) as Hp. unfold pay_ok in Hp.
  unfold text_of, is_text. rewrite E. destruct n as [i ty pay]. simpl in *.
  destruct ty; split; try discriminate; try (intros [s H]; discriminate); auto.
  intros _. destruct Hp as [s ->]. eauto.
Qed.

Lemma node_text_of d k c n s :
  Good d k -> nth_error (nodes d) c = Some n -> text_of d c = Some s ->
  node_text n = Ok s /\ n_id n = c /\ is_text n = true.
Proof.
  intros G E Ht. pose proof (inv_ids _ _ (g_inv _ _ G) c n E).
  unfold text_of, node_text, is_text in *. rewrite E in Ht. destruct n as [i ty pay].
  destruct ty; try discriminate. destruct pay; try discriminate.
  injection Ht as <-. auto.
Qed.

(** [tryMerge] *)
Lemma try_merge_ok d k t src append s :
  Good d k -> t < length (nodes d) -> text_of d src = Some s ->
  try_merge t src append d
  = match text_of d t with
    | Some old => Ok (true, text_set d t (if append then old ++ [cSP] ++ s
                                          else s ++ [cSP] ++ old))
    | None => Ok (false, d)
    end.
Proof.
  intros G Ht Hs. unfold try_merge, get_node.
  destruct (nth_error (nodes d) t) as [n|] eqn:En.
  2:{ apply nth_error_None in En. lia. }
  cbn [bind]. pose proof (is_text_of d k t n G En) as Hi.
  destruct (text_of_kind _ _ _ Hs) as [_ Hsl].
  destruct (nth_error (nodes d) src) as [m|] eqn:Em.
  2:{ apply nth_error_None in Em. lia. }
  destruct (node_text_of d k src m s G Em Hs) as (Hm & _ & _).
  destruct (text_of d t) as [old|] eqn:Et.
  - destruct (node_text_of d k t n old G En Et) as (Hn & Hid & Hty).
    rewrite Hty. cbn [bind]. rewrite Hm. cbn [bind].
    unfold add_text_to_text_node, set_pay, get_node. rewrite En. cbn [bind].
    rewrite Hn. cbn [bind]. rewrite Hid.
    unfold text_set. unfold is_text in Hty. destruct (n_type n); try discriminate.
    reflexivity.
  - destruct (is_text n); auto. destruct (proj1 Hi eq_refl) as [? ?]. discriminate.
Qed.

(** ** Removal *)
Lemma reg_nonempty d : RegInv d -> 0 < length (tag_reg d).
Proof.
  intros R. destruct (ri_tag _ R) as (l & E & _).
  destruct (tag_reg d); [discriminate|]. simpl. lia.
Qed.

Lemma cut_good d d' k D :
  Good d k -> Inv d' (cut D k) -> same_meta d d' -> nodes_cut D (nodes d) (nodes d') ->
  ~ In 0 D -> ~ In 1 D -> Good d' (cut D k).
Proof.
  intros [I R T] I' E [Nl Nn] H0 H1.
  assert (Hs : forall i m, nth_error (nodes d') i = Some m ->
     exists n, nth_error (nodes d) i = Some n /\ m = if mem i D then removed_node i else n).
  { intros i m Hi. destruct (nth_error (nodes d) i) as [n|] eqn:En.
    - rewrite (Nn i n En) in Hi. injection Hi as <-. eauto.
    - apply nth_error_None in En. apply nth_lt in Hi. lia. }
  assert (Hk : forall i, ~ In i D -> nth_error (nodes d') i = nth_error (nodes d) i).
  { intros i Hi. destruct (nth_error (nodes d) i) as [n|] eqn:En.
    - rewrite (Nn i n En). rewrite (proj2 (mem_not i D)); auto.
    - apply nth_error_None in En. apply nth_error_None. lia. }
  constructor; auto.
  - pose proof (reg_nonempty d R) as Hne. destruct R. unfold same_meta in E.
    constructor; try (rewrite E; simpl; rewrite ?Nl; auto).
    intros i m t Hi Ht. destruct (Hs i m Hi) as (n & En & ->).
    destruct (mem i D); [|eauto]. simpl in Ht. injection Ht as <-. auto.
  - destruct T. constructor; unfold kind in *.
    + intros i m Hi. destruct (Hs i m Hi) as (n & En & ->).
      destruct (mem i D); [exact Logic.I|eauto].
    + rewrite Hk; auto.
    + rewrite Hk; auto.
    + intros i m Hi2 Hi. destruct (Hs i m Hi) as (n & En & ->).
      destruct (mem i D); [right; reflexivity|eauto].
    + intros q c m Hc Hi. apply cut_in in Hc as [Hc Hd].
      rewrite Hk in Hi by auto. eauto.
Qed.

Lemma cut_content d d' D n :
  same_meta d d' -> nodes_cut D (nodes d) (nodes d') -> ~ In n D -> same_content d d' n.
Proof.
  intros E [Nl Nn] Hn.
  assert (Hk : nth_error (nodes d') n = nth_error (nodes d) n).
  { destruct (nth_error (nodes d) n) as [m|] eqn:En.
    - rewrite (Nn n m En). rewrite (proj2 (mem_not n D)); auto.
    - apply nth_error_None in En. apply nth_error_None. lia. }
  unfold same_content, content, kind, tag_name, text_of, bool_attrs, attrs.
  rewrite Hk. unfold same_meta in E. rewrite E. simpl. reflexivity.
Qed.

Lemma cut_removed d d' D n :
  nodes_cut D (nodes d) (nodes d') -> In n D -> n < length (nodes d) ->
  kind d' n = Some TRemoved.
Proof.
  intros [Nl Nn] Hn Hl. unfold kind.
  destruct (nth_error (nodes d) n) as [m|] eqn:En.
  - rewrite (Nn n m En). rewrite (proj2 (mem_in n D)); auto.
  - apply nth_error_None in En. lia.
Qed.

Lemma pre_bound n k c x : kw n k -> 2 <= c -> In x (pre n k c) -> 2 <= x.
Proof. intros W Hc H. apply pre_ge in H; auto. lia. Qed.

Lemma remove_node_good d k c :
  Good d k -> (exists q, In c (k q)) ->
  let D := pre (length (nodes d)) k c in
  exists d', remove_node c d = Ok d' /\ Good d' (cut D k) /\
    length (nodes d') = length (nodes d) /\
    (forall n, ~ In n D -> same_content d d' n) /\
    (forall n, In n D -> kind d' n = Some TRemoved).
Proof.
  intros G [q Hq] D. pose proof (g_inv _ _ G) as I. pose proof (inv_kw _ _ I) as W.
  pose proof (kw_bound _ _ W _ _ Hq) as Hb.
  destruct (remove_node_ok d k c I) as (d' & E & I' & M & Nc & _).
  { split; [lia|]. left. eauto. }
  exists d'. split; auto.
  assert (HD : forall x, In x D -> 2 <= x < length (nodes d)).
  { intros x Hx. destruct (pre_parent _ _ _ _ W Hx) as [->|(p & Hp & _)]; auto.
    apply (kw_bound _ _ W _ _ Hp). }
  split; [|split; [|split]].
  - eapply cut_good; eauto; intros H; apply HD in H; lia.
  - apply Nc.
  - intros n Hn. eapply cut_content; eauto.
  - intros n Hn. eapply cut_removed; eauto. apply HD in Hn. lia.
Qed.

Lemma remove_children_good d k c :
  Good d k -> c <> 0 ->
  let D := pres (length (nodes d)) k (k (Par c)) in
  exists d', remove_children c d = Ok d' /\ Good d' (cut D k) /\
    length (nodes d') = length (nodes d) /\
    (forall n, ~ In n D -> same_content d d' n) /\
    (forall n, In n D -> kind d' n = Some TRemoved).
Proof.
  intros G Hc D. pose proof (g_inv _ _ G) as I. pose proof (inv_kw _ _ I) as W.
  destruct (remove_children_ok d k c I Hc) as (d' & E & I' & M & Nc & _).
  exists d'. split; auto.
  assert (HD : forall x, In x D -> 2 <= x < length (nodes d)).
  { intros x Hx. apply pres_in in Hx as (y & Hy & Hx).
    destruct (pre_parent _ _ _ _ W Hx) as [->|(p & Hp & _)].
    - apply (kw_bound _ _ W _ _ Hy).
    - apply (kw_bound _ _ W _ _ Hp). }
  split; [|split; [|split]].
  - eapply cut_good; eauto; intros H; apply HD in H; lia.
  - apply Nc.
  - intros n Hn. eapply cut_content; eauto.
  - intros n Hn. eapply cut_removed; eauto. apply HD in Hn. lia.
Qed.

(** Removing a floating leaf. *)
Lemma pre_leaf n k c : kw n k -> k (Par c) = [] -> pre n k c = [c].
Proof. intros W E. rewrite pre_eq by auto. rewrite E. reflexivity. Qed.

Lemma cut_one_filter c k q : cut [c] k q = without c (k q).
Proof.
  unfold cut, without. apply filter_ext_in'. intros x _. unfold mem. simpl.
  rewrite orb_false_r. reflexivity.
Qed.

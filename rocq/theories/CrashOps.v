(** * Where each editing call can be abandoned, and what it leaves. *)
From Coq Require Import List NArith Arith Bool Lia.
From Verif Require Import Base TrieModel DomModel ParserModel EditModel ReadModel DomSpec ApiSpec Lemmas TrieProofs
  Tables Inv Surgery Attach Replace Link RegProofs ParseSafe ParseTree ParseLoop Walk AttrProofs EditProofs EditOps EditHtml
  ApiProofs Grow CrashSpec CrashModel CrashAgree CrashDebris CrashWalk CrashRead CrashLink.
Import ListNotations.
Local Open Scope nat_scope.

(** [dm] is a good document with the child lists of [d]; texts may have been
    merged into children of [p] (if [M]). *)
Record midst (M : Prop) (p : nat) (d : dom) (k : kids) (dm : dom) (km : kids) : Prop := {
  md_good : Good dm km;
  md_len : length (nodes d) <= length (nodes dm);
  md_cap : (N.of_nat (length (nodes d)) <= 65535)%N -> (N.of_nat (length (nodes dm)) <= 65535)%N;
  md_kids : forall q, q < length (nodes d) -> km (Par q) = k (Par q);
  md_data : forall i, 1 <= i < length (nodes d) ->
     same_content d dm i \/ (M /\ In i (k (Par p)) /\ more_text d dm i) }.

(** The links of new nodes [N] between [A] and [Z] are being set. *)
Record links (M : Prop) (d : dom) (k : kids) (p : nat) (A N Z gone : list nat) (e d' : dom) : Prop := {
  li_mid : exists dm km, midst M p d k dm km /\ same_data dm d';
  li_end : exists ke, Good e ke /\ ke (Par p) = A ++ N ++ Z /\
      (forall q, q < length (nodes d) -> q <> p -> ke (Par q) = k (Par q)) /\
      (forall q c, In c (ke q) -> ~ In c gone);
  li_new : N <> [] /\ (forall x, In x N -> length (nodes d) <= x);
  li_one : ~ In 1 gone;
  li_lnk : lnk (fun c => ~ In c gone) (last N 0) d' e;
  li_kind : forall x, ~ In x gone -> kind d' x = kind e x;
  li_size : length (nodes d') = length (nodes e);
  li_gone : forall x, In x gone -> get_next x d' = hd 0 Z }.

Lemma data_nodes d d' : same_data d d' -> nodes d' = nodes d.
Proof. intros ->. reflexivity. Qed.

Definition stq {A} (P : dom -> Prop) (L : A -> dom -> Prop) (x : ab A) : Prop :=
  forall d', In d' (fst x) -> P d' \/ exists a, snd x = Ok a /\ L a d'.

Lemma in_bind {A B} (x : ab A) (f : A -> ab B) d' : In d' (fst (a_bind x f)) ->
  In d' (fst x) \/ exists a, snd x = Ok a /\ In d' (fst (f a)).
Proof.
  unfold a_bind. destruct (snd x) as [a| | |]; cbn [fst]; auto. intro H. apply in_app_or in H.
  destruct H; eauto.
Qed.
Lemma stq_bind {A B} (P : dom -> Prop) (L : B -> dom -> Prop) (x : ab A) f :
  (forall d', In d' (fst x) -> P d') -> (forall a, snd x = Ok a -> stq P L (f a)) -> stq P L (a_bind x f).
Proof.
  intros H1 H2 d' H. apply in_bind in H as [H|(a & E & H)]; auto.
  destruct (H2 a E d' H) as [?|(b & Eb & Lb)]; auto. right. exists b. split; auto.
  rewrite snd_bind, E. exact Eb.
Qed.
Lemma stq_pbind {A B} (P : dom -> Prop) (L : B -> dom -> Prop) (o : outcome A) a f :
  o = Ok a -> stq P L (f a) -> stq P L (a_bind (pure o) f).
Proof. intros -> H. apply stq_bind; [easy|]. intros b E. injection E as <-. auto. Qed.
Lemma stq_try {B} (P : dom -> Prop) (L : B -> dom -> Prop) d f : P d -> stq P L f -> stq P L (a_bind (may_jump d) (fun _ => f)).
Proof. intros Hd H. apply stq_bind; auto. intros d' [<-|[]]. auto. Qed.
Lemma stq_ret {A} (P : dom -> Prop) (L : A -> dom -> Prop) a : stq P L (a_ret a).
Proof. intros d' []. Qed.
Lemma stq_pure {A} (P : dom -> Prop) (L : A -> dom -> Prop) o : stq P L (pure o).
Proof. intros d' []. Qed.
Lemma stq_all {A} (P : dom -> Prop) (L : A -> dom -> Prop) x : Forall P (fst x) -> stq P L x.
Proof. intros F d' I. rewrite Forall_forall in F. auto. Qed.

Lemma try_merge_st t s a d d' : In d' (fst (c_try_merge t s a d)) -> d' = d.
Proof.
  unfold c_try_merge, c_add_text_to_text_node. intro H.
  repeat (apply in_bind in H as [H|(? & _ & H)]; [try (now destruct H)|]);
    try (destruct (is_text _); [|now destruct H]);
    repeat (apply in_bind in H as [H|(? & _ & H)]; [try (now destruct H)|]);
    try (now destruct H).
  all: try (destruct H as [<-|[]]; auto).
Qed.

Lemma pre_old n n' k km : kw n k -> kw n' km -> n <= n' ->
  (forall q, q < n -> km (Par q) = k (Par q)) -> forall c, c < n -> pre n' km c = pre n k c.
Proof.
  intros W W' L E c. pattern c. apply (kids_ind n k); auto. clear c. intros c IH Hc.
  rewrite (pre_eq n' km) by auto. rewrite (pre_eq n k) by auto. f_equal. rewrite E by auto.
  unfold pres. apply flat_map_ext_in. intros x I. apply IH; auto. apply (kw_bound _ _ W) in I. lia.
Qed.

Lemma last_cons (r : list nat) : forall a x, last (a :: r) x = last r a.
Proof.
  induction r as [|b r IH]; intros a x; auto.
  change (last (b :: r) x = last (b :: r) a). now rewrite !IH.
Qed.

Section Base.
Context (d : dom) (k : kids) (G : Good d k).
Notation n := (length (nodes d)).
Definition pst (M : Prop) (p : nat) (d' : dom) : Prop :=
  debris d d' \/ exists km, midst M p d k d' km /\ ((forall i, 1 <= i < n -> same_content d d' i) -> debris d d').

Lemma midst_debris d1 k1 M p : debris d d1 -> Good d1 k1 -> (forall q, q < n -> k1 (Par q) = k (Par q)) ->
  midst M p d k d1 k1.
Proof.
  intros D G1 K. constructor; auto.
  - now apply debris_len.
  - apply (db_cap _ _ D).
  - intros i Hi. left. eapply dbr_content; eauto. lia.
Qed.

Lemma finish_append M p dm km f new rest (w : nat) :
  midst M p d k dm km -> pst M p dm -> km (Flo f) = new :: rest -> (forall c, In c (new :: rest) -> n <= c) -> 1 <= p < n ->
  stq (pst M p) (fun '(_, e) d' => links M d k p (k (Par p)) (new :: rest) [] [] e d')
      (a_bind (c_append_refs p new dm) (fun d => a_ret (w, d))).
Proof.
  intros H Hs Hm Hn Hp d' I. apply in_bind in I as [I|(? & _ & [])].
  destruct (chain_append dm km p f new rest (md_good _ _ _ _ _ _ H) Hm) as (e & Ee & Se & Ge).
  { intros c Ic. apply Hn in Ic. lia. }
  destruct (append_states dm p new rest e d' Ee) as [Sd [->|Q]]; auto.
  { eapply inv_ordered. exact (g_inv _ _ Ge). }
  right. exists (w, e). split.
  { rewrite snd_bind, s_append_refs, Ee. reflexivity. }
  constructor; auto.
  - exists dm, km. auto.
  - eexists. split; [exact Ge|]. rewrite splice_par, app_nil_r. split; [|split; auto].
    + rewrite (md_kids _ _ _ _ _ _ H) by lia. reflexivity.
    + intros q Hq Nq. rewrite splice_other by congruence. apply (md_kids _ _ _ _ _ _ H). auto.
  - split; [discriminate|auto].
  - rewrite last_cons. destruct Q as [Q1 Q2 Q3 Q4]. constructor; auto.
  - intros x _. unfold kind. now rewrite (data_nodes _ _ Sd), (data_nodes _ _ Se).
  - now rewrite (data_nodes _ _ Sd), (data_nodes _ _ Se).
  - intros x [].
Qed.

Lemma finish_prepend M p dm km f new rest (w : nat) :
  midst M p d k dm km -> pst M p dm -> km (Flo f) = new :: rest -> (forall c, In c (new :: rest) -> n <= c) -> 1 <= p < n ->
  stq (pst M p) (fun '(_, e) d' => links M d k p [] (new :: rest) (k (Par p)) [] e d')
      (a_bind (c_prepend_refs p new dm) (fun d => a_ret (w, d))).
Proof.
  intros H Hs Hm Hn Hp d' I. apply in_bind in I as [I|(? & _ & [])].
  destruct (chain_prepend dm km p f new rest (md_good _ _ _ _ _ _ H) Hm) as (e & Ee & Se & Ge).
  { intros c Ic. apply Hn in Ic. lia. }
  destruct (prepend_states dm km (g_inv _ _ (md_good _ _ _ _ _ _ H)) p f new rest Hm e d' Ee) as [Sd [->|Q]]; auto.
  { eapply inv_ordered. exact (g_inv _ _ Ge). }
  right. exists (w, e). split.
  { rewrite snd_bind, s_prepend_refs, Ee. reflexivity. }
  constructor; auto.
  - exists dm, km. auto.
  - eexists. split; [exact Ge|]. rewrite splice_par. split; [|split; auto].
    + rewrite (md_kids _ _ _ _ _ _ H) by lia. reflexivity.
    + intros q Hq Nq. rewrite splice_other by congruence. apply (md_kids _ _ _ _ _ _ H). auto.
  - split; [discriminate|auto].
  - rewrite last_cons. destruct Q as [Q1 Q2 Q3 Q4]. constructor; auto.
  - intros x _. unfold kind. now rewrite (data_nodes _ _ Sd), (data_nodes _ _ Se).
  - now rewrite (data_nodes _ _ Sd), (data_nodes _ _ Se).
  - intros x [].
Qed.

Lemma finish_replace M p dm km f new rest old l1 l2 (w : nat) :
  midst M p d k dm km -> km (Flo f) = new :: rest -> (forall c, In c (new :: rest) -> n <= c) ->
  k (Par p) = l1 ++ old :: l2 ->
  stq (pst M p) (fun '(_, e) d' => links M d k p l1 (new :: rest) l2 [old] e d')
      (a_bind (c_replace_refs old new dm) (fun d => a_ret (w, d))).
Proof.
  intros H Hm Hn Ek d' I. apply in_bind in I as [I|(? & _ & [])].
  pose proof (inv_kw _ _ (g_inv _ _ G)) as W.
  assert (Io : In old (k (Par p))) by (rewrite Ek; apply in_elt).
  pose proof (kw_order _ _ W _ _ Io) as Hp. pose proof (kw_bound _ _ W _ _ Io) as Ho.
  assert (Hpn : p < n) by lia.
  assert (Ekm : km (Par p) = l1 ++ old :: l2) by (rewrite (md_kids _ _ _ _ _ _ H); auto).
  destruct (chain_replace dm km p f new rest old l1 l2 (md_good _ _ _ _ _ _ H) Hm) as (e & Ee & Le & Ge & _ & Ce); auto.
  { intros c Ic. apply Hn in Ic. lia. }
  destruct (replace_states dm km p f new rest old l1 l2 e d') as (Sd & Q & _ & No); auto.
  { apply (md_good _ _ _ _ _ _ H). }
  { lia. }
  { eapply inv_ordered. exact (g_inv _ _ Ge). }
  right. exists (w, e). split.
  { rewrite snd_bind, s_replace_refs, Ee. reflexivity. }
  pose proof (inv_kw _ _ (g_inv _ _ (md_good _ _ _ _ _ _ H))) as Wm.
  constructor; auto.
  - exists dm, km. auto.
  - eexists. split; [exact Ge|]. rewrite splice_par. split; [reflexivity|split; auto].
    + intros q Hq Nq. rewrite splice_other by congruence. apply (md_kids _ _ _ _ _ _ H). auto.
    + intros q c I1 [<-|[]]. destruct (key_dec q (Par p)) as [->|Nq].
      * rewrite splice_par in I1.
        pose proof (kw_nodup _ _ Wm (Par p)) as ND. rewrite Ekm in ND. apply NoDup_remove_2 in ND.
        apply in_app_or in I1. destruct I1 as [I1|I1]; [apply ND; apply in_or_app; auto|].
        apply in_app_or in I1. destruct I1 as [I1|I1]; [|apply ND; apply in_or_app; auto].
        apply Hn in I1. lia.
      * destruct (key_dec q (Flo f)) as [->|Nf]; [now rewrite splice_flo in I1|].
        rewrite splice_other in I1 by auto. apply Nq. eapply (kw_disj _ _ Wm); [exact I1|].
        rewrite Ekm. apply in_elt.
  - split; [discriminate|auto].
  - simpl. intros [Q1|[]]. lia.
  - rewrite last_cons. destruct Q as [Q1 Q2 Q3 Q4]. constructor; auto.
    intros c Nc. apply Q2. intros ->. apply Nc. simpl; auto.
  - intros x Nx. assert (x <> old) as Nx' by (intros ->; apply Nx; simpl; auto).
    pose proof (Ce x Nx') as Cx. unfold same_content, content in Cx.
    assert (kind e x = kind dm x) as -> by congruence. unfold kind. now rewrite (data_nodes _ _ Sd).
  - now rewrite (data_nodes _ _ Sd), Le.
  - intros x [<-|[]]. exact No.
Qed.

Lemma replace_one M p dm km f new old l1 l2 :
  midst M p d k dm km -> km (Flo f) = [new] -> n <= new -> k (Par p) = l1 ++ old :: l2 ->
  fst (c_replace_refs old new dm) = [].
Proof.
  intros H Hm Hn Ek. pose proof (inv_kw _ _ (g_inv _ _ G)) as W.
  assert (Io : In old (k (Par p))) by (rewrite Ek; apply in_elt).
  pose proof (kw_order _ _ W _ _ Io) as Hp. pose proof (kw_bound _ _ W _ _ Io) as Ho.
  assert (Ekm : km (Par p) = l1 ++ old :: l2) by (rewrite (md_kids _ _ _ _ _ _ H); auto; lia).
  destruct (chain_replace dm km p f new [] old l1 l2 (md_good _ _ _ _ _ _ H) Hm) as (e & Ee & Le & Ge & _ & _); auto.
  { intros c [<-|[]]. lia. }
  destruct (fst (c_replace_refs old new dm)) as [|d' ds] eqn:F; auto. exfalso.
  destruct (replace_states dm km p f new [] old l1 l2 e d') as (_ & _ & Q & _); auto.
  - apply (md_good _ _ _ _ _ _ H).
  - lia.
  - eapply inv_ordered. exact (g_inv _ _ Ge).
  - rewrite F. simpl; auto.
Qed.

Lemma try_merge_false t s a x y : try_merge t s a x = Ok (false, y) -> y = x.
Proof.
  unfold try_merge. intro H. apply bind_ok in H as (m & _ & H). destruct (is_text m).
  - apply bind_ok in H as (m2 & _ & H). apply bind_ok in H as (u & _ & H). apply bind_ok in H as (v & _ & H).
    discriminate.
  - now injection H as <-.
Qed.
Lemma both_st o x dm d' : In d' (fst (c_try_merge_both o x dm)) -> d' = dm.
Proof.
  unfold c_try_merge_both. intro H. apply in_bind in H as [H|(m & _ & H)]; [now destruct H|].
  destruct (is_text m); [|now destruct H]. destruct (prev_idx o dm).
  - apply in_bind in H as [H|([b y] & E & H)]; [now apply try_merge_st in H|].
    rewrite s_try_merge in E. destruct b; [now destruct H|]. apply try_merge_false in E. subst y.
    destruct (next_idx o dm); [|now destruct H]. now apply try_merge_st in H.
  - destruct (next_idx o dm); [|now destruct H]. now apply try_merge_st in H.
Qed.
Lemma both_false o x dm y : try_merge_both o x dm = Ok (false, y) -> y = dm.
Proof.
  unfold try_merge_both. intro H. apply bind_ok in H as (m & _ & H).
  destruct (is_text m); [|now injection H]. destruct (prev_idx o dm).
  - apply bind_ok in H as ([b z] & E & H). destruct b; [discriminate|]. apply try_merge_false in E. subst z.
    destruct (next_idx o dm); [|now injection H]. now apply try_merge_false in H.
  - destruct (next_idx o dm); [|now injection H]. now apply try_merge_false in H.
Qed.

(** A single new node. *)
Lemma created d1 x M p : added d d1 x -> debris d d1 ->
  midst M p d k d1 (floated k x) /\ floated k x (Flo x) = [x] /\ (forall c, In c [x] -> n <= c) /\ x <> 0.
Proof.
  intros A D. destruct (added_good d d1 x k G A) as (G1 & _ & _).
  destruct (new_facts d k G d1 x A) as (_ & _ & _ & Q & _ & _ & Qn).
  split; [|split; [apply floated_flo|split]].
  - apply midst_debris; auto.
  - intros c [<-|[]]. lia.
  - lia.
Qed.
Lemma elem_made dn x d1 : snd (c_parse_document_element dn d) = Ok (x, d1) -> added d d1 x /\ debris d d1.
Proof.
  intro E. split.
  - rewrite s_document_element in E. eapply elem_added_added.
    exact (safe_inv _ _ _ _ (parse_document_element_ok dn d (g_reg _ _ G)) E).
  - destruct (a_document_element d dn d (debris_refl d)) as [_ Q]. rewrite E in Q. apply Q.
Qed.
Lemma text_made s x d1 : snd (c_parse_text_element s d) = Ok (x, d1) -> added d d1 x /\ debris d d1.
Proof.
  intro E. split.
  - rewrite s_text_element in E. eapply text_added_added; [apply (g_reg _ _ G)|].
    exact (safe_inv _ _ _ _ (parse_text_element_ok s d) E).
  - destruct (a_text_element d s d (debris_refl d)) as [_ Q]. rewrite E in Q. apply Q.
Qed.
Lemma elem_st dn d' M p : In d' (fst (c_parse_document_element dn d)) -> pst M p d'.
Proof.
  intro I. destruct (a_document_element d dn d (debris_refl d)) as [Q _]. rewrite Forall_forall in Q.
  left. auto.
Qed.
Lemma text_st s d' M p : In d' (fst (c_parse_text_element s d)) -> pst M p d'.
Proof.
  intro I. destruct (a_text_element d s d (debris_refl d)) as [Q _]. rewrite Forall_forall in Q.
  left. auto.
Qed.

Lemma j_append_doc M p dn : 1 <= p < n ->
  stq (pst M p) (fun '(_, e) d' => exists N, links M d k p (k (Par p)) N [] [] e d') (c_append_document_node p dn d).
Proof.
  intro Hp. unfold c_append_document_node. apply stq_bind; [intros; eapply elem_st; eauto|].
  intros [x d1] E. apply elem_made in E as [A D]. destruct (created d1 x M p A D) as (Md & F & B & Nz).
  apply Nat.eqb_neq in Nz. rewrite Nz. intros d' I.
  destruct (finish_append M p d1 _ x x [] x Md (or_introl D) F B Hp d' I) as [?|([w e] & ? & ?)]; auto.
  right. exists (w, e). eauto.
Qed.
Lemma j_prepend_doc M p dn : 1 <= p < n ->
  stq (pst M p) (fun '(_, e) d' => exists N, links M d k p [] N (k (Par p)) [] e d') (c_prepend_document_node p dn d).
Proof.
  intro Hp. unfold c_prepend_document_node. apply stq_bind; [intros; eapply elem_st; eauto|].
  intros [x d1] E. apply elem_made in E as [A D]. destruct (created d1 x M p A D) as (Md & F & B & Nz).
  apply Nat.eqb_neq in Nz. rewrite Nz. intros d' I.
  destruct (finish_prepend M p d1 _ x x [] x Md (or_introl D) F B Hp d' I) as [?|([w e] & ? & ?)]; auto.
  right. exists (w, e). eauto.
Qed.
Lemma j_replace_doc old dn p l1 l2 : k (Par p) = l1 ++ old :: l2 ->
  Forall (debris d) (fst (c_replace_with_document_node old dn d)).
Proof.
  intro Ek. rewrite Forall_forall. intros d' I. unfold c_replace_with_document_node in I.
  apply in_bind in I as [I|([x d1] & E & I)].
  - destruct (a_document_element d dn d (debris_refl d)) as [Q2 _]. rewrite Forall_forall in Q2. auto.
  - apply elem_made in E as [A D]. destruct (created d1 x False p A D) as (Md & F & B & Nz).
    apply Nat.eqb_neq in Nz. rewrite Nz in I. apply in_bind in I as [I|(? & _ & [])].
    rewrite (replace_one False p d1 _ x x old l1 l2 Md F) in I; [destruct I| |auto]. apply B. simpl; auto.
Qed.

Lemma j_append_text M p s : 1 <= p < n ->
  stq (pst M p) (fun '(_, e) d' => exists N, links M d k p (k (Par p)) N [] [] e d') (c_append_text_node p s d).
Proof.
  intro Hp. unfold c_append_text_node. apply stq_bind; [intros; eapply text_st; eauto|].
  intros [x d1] E. apply text_made in E as [A D]. destruct (created d1 x M p A D) as (Md & F & B & Nz).
  apply Nat.eqb_neq in Nz. rewrite Nz.
  assert (Fin : stq (pst M p) (fun '(_, e) d' => exists N, links M d k p (k (Par p)) N [] [] e d')
     (a_bind (c_append_refs p x d1) (fun d => a_ret (x, d)))).
  { intros d' I. destruct (finish_append M p d1 _ x x [] x Md (or_introl D) F B Hp d' I) as [?|([w e] & ? & ?)]; auto.
    right. exists (w, e). eauto. }
  destruct (0 <? get_first_child p d1); auto.
  apply stq_bind; [easy|]. intros c _. apply stq_bind.
  { intros d' I. apply try_merge_st in I. subst. left; auto. }
  intros [b y] Ey. rewrite s_try_merge in Ey. destruct b.
  - apply stq_bind; [easy|]. intros; apply stq_ret.
  - apply try_merge_false in Ey. subst y. auto.
Qed.
Lemma j_prepend_text M p s : 1 <= p < n ->
  stq (pst M p) (fun '(_, e) d' => exists N, links M d k p [] N (k (Par p)) [] e d') (c_prepend_text_node p s d).
Proof.
  intro Hp. unfold c_prepend_text_node. apply stq_bind; [intros; eapply text_st; eauto|].
  intros [x d1] E. apply text_made in E as [A D]. destruct (created d1 x M p A D) as (Md & F & B & Nz).
  apply Nat.eqb_neq in Nz. rewrite Nz.
  assert (Fin : stq (pst M p) (fun '(_, e) d' => exists N, links M d k p [] N (k (Par p)) [] e d')
     (a_bind (c_prepend_refs p x d1) (fun d => a_ret (x, d)))).
  { intros d' I. destruct (finish_prepend M p d1 _ x x [] x Md (or_introl D) F B Hp d' I) as [?|([w e] & ? & ?)]; auto.
    right. exists (w, e). eauto. }
  destruct (0 <? get_first_child p d1); auto.
  apply stq_bind.
  { intros d' I. apply try_merge_st in I. subst. left; auto. }
  intros [b y] Ey. rewrite s_try_merge in Ey. destruct b.
  - apply stq_bind; [easy|]. intros; apply stq_ret.
  - apply try_merge_false in Ey. subst y. auto.
Qed.
Lemma j_replace_text old s p l1 l2 : k (Par p) = l1 ++ old :: l2 ->
  Forall (debris d) (fst (c_replace_with_text_node old s d)).
Proof.
  intro Ek. rewrite Forall_forall. intros d' I. unfold c_replace_with_text_node in I.
  apply in_bind in I as [I|([x d1] & E & I)].
  - destruct (a_text_element d s d (debris_refl d)) as [Q2 _]. rewrite Forall_forall in Q2. auto.
  - apply text_made in E as [A D]. destruct (created d1 x False p A D) as (Md & F & B & Nz).
    apply Nat.eqb_neq in Nz. rewrite Nz in I. apply in_bind in I as [I|([b y] & Eb & I)].
    { apply both_st in I. now subst. }
    rewrite s_try_both in Eb. destruct b.
    + repeat (apply in_bind in I as [I|(? & _ & I)]; [destruct I|]). destruct I.
    + apply both_false in Eb. subst y. apply in_bind in I as [I|(? & _ & [])].
      rewrite (replace_one False p d1 _ x x old l1 l2 Md F) in I; [destruct I| |auto]. apply B. simpl; auto.
Qed.
End Base.

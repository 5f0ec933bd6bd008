(** * User-level statements of the editing calls, for reachable DOMs. *)
From Coq Require Import List NArith Arith Bool Lia.
From Verif Require Import Base TrieModel DomModel ParserModel EditModel ReadModel Lemmas
     TrieProofs Tables Inv Surgery DomSpec Attach Replace Link RegProofs ParseSafe ParseTree
     ParseLoop Walk EditProofs EditOps EditHtml AttrProofs ApiSpec ApiProofs NoJump.
Import ListNotations.
Local Open Scope nat_scope.

Lemma reg_ident reg m : reg_ok reg m -> S (mident m) = length reg.
Proof. intros (l & -> & _ & H & _). simpl. rewrite H. reflexivity. Qed.

Lemma room_good d k c : Good d k -> room_for d c -> room d c.
Proof.
  intros G (H1 & H2 & H3 & H4 & H5). destruct G as [_ R _].
  pose proof (reg_ident _ _ (ri_tag _ R)) as E1. rewrite map_length in E1.
  pose proof (reg_ident _ _ (ri_bool _ R)) as E2.
  pose proof (reg_ident _ _ (ri_key _ R)) as E3.
  pose proof (reg_ident _ _ (ri_val _ R)) as E4.
  unfold room, free. lia.
Qed.

Lemma gives_safe {A} d k c (o : outcome A) Q :
  Good d k -> safe False Q o -> (room d c -> nj any o) -> gives d c o Q.
Proof.
  intros G S J. split; [now apply ends_safe|]. intros R.
  specialize (J (room_good _ _ _ G R)).
  destruct o as [a|u|j|]; simpl in *; try tauto; eauto. destruct u; tauto.
Qed.
Lemma gives_imp {A} d c (o : outcome A) (P Q : A -> Prop) :
  gives d c o P -> (forall a, P a -> Q a) -> gives d c o Q.
Proof. intros [H1 H2] H. split; auto. eapply ends_imp; eauto. Qed.

Lemma nj_inv {A B} (x : outcome A) (f : A -> outcome B) : nj any (bind x f) -> nj any x.
Proof. destruct x; simpl; unfold any; auto. Qed.

(** ** Children of the new DOM *)
Lemma kc d k p l : Good d k -> (children d p l <-> l = k (Par p)).
Proof. intros G. apply children_k. apply G. Qed.

Lemma same_but d k d' k' L :
  Good d k -> Good d' k' -> (forall q, ~ In q L -> k' (Par q) = k (Par q)) ->
  same_children_but d d' L.
Proof.
  intros G G' H q m Hq. rewrite (kc _ _ _ _ G), (kc _ _ _ _ G'), (H q Hq). tauto.
Qed.

Lemma upk_par k p l q : q <> p -> upk k (Par p) l (Par q) = k (Par q).
Proof. intros. apply upk_neq. congruence. Qed.

(** ** Cutting a subtree *)
Section Cut.
  Context (n : nat) (k : kids) (W : kw n k) (p c : nat) (l1 l2 : list nat).
  Context (Hk : k (Par p) = l1 ++ c :: l2).
  Notation D := (pre n k c).
  Lemma cut_other_in x q : In x (k q) -> In x D -> x <> c -> exists y, q = Par y /\ In y D.
  Proof.
    intros Hx HD Hn. destruct (pre_parent _ _ _ _ W HD) as [->|(y & Hy & HyD)]; [tauto|].
    exists y. split; auto. eapply kw_disj; eauto.
  Qed.
  Lemma cut_c_in q : In c (k q) -> q = Par p.
  Proof.
    intros H. eapply kw_disj; eauto. rewrite Hk. apply in_elt.
  Qed.
  Lemma cut_p_out : ~ In p D.
  Proof.
    intros H. apply (pre_ge _ _ _ _ W) in H.
    assert (In c (k (Par p))) as Hc by (rewrite Hk; apply in_elt).
    apply (kw_order _ _ W) in Hc. lia.
  Qed.
  Lemma cut_parent : cut D k (Par p) = l1 ++ l2.
  Proof.
    pose proof (kw_nodup _ _ W (Par p)) as ND. rewrite Hk in ND.
    apply nodup_mid in ND as [_ ND].
    assert (A : forall x, In x (l1 ++ l2) -> ~ In x D).
    { intros x Hx HD. assert (x <> c) by (intros ->; auto).
      assert (In x (k (Par p))).
      { rewrite Hk. apply in_app_or in Hx. apply in_or_app. simpl. tauto. }
      destruct (cut_other_in _ _ H0 HD H) as (y & E & Hy). injection E as <-.
      now apply cut_p_out. }
    unfold cut. rewrite Hk, filter_app. simpl.
    assert (E : mem c D = true) by (apply mem_in, pre_self; auto). rewrite E. simpl.
    rewrite !filter_all; auto; intros x Hx; apply negb_true_iff, mem_not, A, in_or_app; auto.
  Qed.
  Lemma cut_far q : q <> p -> ~ In q D -> cut D k (Par q) = k (Par q).
  Proof.
    intros Hq HD. apply cut_id. intros x Hx HxD.
    destruct (Nat.eq_dec x c) as [->|Hn].
    - apply cut_c_in in Hx. congruence.
    - destruct (cut_other_in _ _ Hx HxD Hn) as (y & E & Hy). congruence.
  Qed.
  Lemma cut_inside q : In q D -> cut D k (Par q) = [].
  Proof.
    intros Hq. destruct (cut D k (Par q)) as [|x l] eqn:E; auto.
    assert (H : In x (cut D k (Par q))) by (rewrite E; now left).
    apply cut_in in H as [H1 H2]. exfalso. apply H2. eapply pre_closed; eauto.
  Qed.
End Cut.

(** The subtrees below [p]. *)
Section CutAll.
  Context (n : nat) (k : kids) (W : kw n k) (p : nat).
  Notation D := (pres n k (k (Par p))).
  Lemma call_in x q : In x (k q) -> In x D -> q = Par p \/ exists y, q = Par y /\ In y D.
  Proof.
    intros Hx HD. apply pres_in in HD as (c & Hc & HD).
    destruct (pre_parent _ _ _ _ W HD) as [->|(y & Hy & HyD)].
    - left. eapply kw_disj; eauto.
    - right. exists y. split; [eapply kw_disj; eauto|]. apply pres_in. eauto.
  Qed.
  Lemma call_out : ~ In p D.
  Proof.
    intros H. apply pres_in in H as (c & Hc & HD). apply (pre_ge _ _ _ _ W) in HD.
    apply (kw_order _ _ W) in Hc. lia.
  Qed.
  Lemma call_parent : cut D k (Par p) = [].
  Proof.
    destruct (cut D k (Par p)) as [|x l] eqn:E; auto.
    assert (H : In x (cut D k (Par p))) by (rewrite E; now left).
    apply cut_in in H as [H1 H2]. exfalso. apply H2. apply pres_in. exists x. split; auto.
    now apply pre_self.
  Qed.
  Lemma call_far q : q <> p -> ~ In q D -> cut D k (Par q) = k (Par q).
  Proof.
    intros Hq HD. apply cut_id. intros x Hx HxD.
    destruct (call_in _ _ Hx HxD) as [E|(y & E & Hy)]; congruence.
  Qed.
  Lemma call_inside q : In q D -> cut D k (Par q) = [].
  Proof.
    intros Hq. destruct (cut D k (Par q)) as [|x l] eqn:E; auto.
    assert (H : In x (cut D k (Par q))) by (rewrite E; now left).
    apply cut_in in H as [H1 H2]. exfalso. apply H2.
    apply pres_in in Hq as (c & Hc & Hq). apply pres_in. exists c. split; auto.
    eapply pre_closed; eauto.
  Qed.
End CutAll.

Lemma removed_intro d k D :
  Good d k -> (forall x, In x D -> kind d x = Some TRemoved) ->
  (forall x, In x D -> k (Par x) = [] /\ forall q, ~ In x (k q)) -> removed d D.
Proof.
  intros G H1 H2 x Hx. destruct (H2 x Hx) as [A B]. split; [auto|]. split.
  - apply (kc _ _ _ _ G). auto.
  - intros H. apply (attached_iff _ _ _ (g_inv _ _ G)) in H as (q & Hq). eapply B; eauto.
Qed.

Lemma pk d k c l : Good d k -> c <> 0 -> (preorder d c l <-> l = pre (length (nodes d)) k c).
Proof. intros G. apply preorder_iff. apply G. Qed.

Lemma psk d k l D : Good d k -> (forall c, In c l -> c <> 0) ->
  (preorders d l D <-> D = pres (length (nodes d)) k l).
Proof.
  intros G. revert D; induction l as [|c l IH]; intros D Hn; split.
  - intros H. inversion H. reflexivity.
  - intros ->. constructor.
  - intros H. inversion H; subst. simpl. f_equal.
    + apply (pk _ _ _ _ G); auto. apply Hn. now left.
    + apply IH; auto. intros; apply Hn. now right.
  - intros ->. simpl. constructor.
    + apply (pk _ _ _ _ G); auto. apply Hn. now left.
    + apply IH; auto. intros; apply Hn. now right.
Qed.

Lemma tmt_some d l c s : ends_with_text d l c s ->
  text_merge_target d (last_error l) = Some (c, s).
Proof.
  intros ((l0 & ->) & H). rewrite last_error_snoc. simpl. now rewrite H.
Qed.
Lemma tmt_none d l : no_text_end d l -> text_merge_target d (last_error l) = None.
Proof.
  intros H. destruct l as [|c l] using rev_ind; [reflexivity|].
  rewrite last_error_snoc. simpl. now rewrite (H l c eq_refl).
Qed.
Lemma tmh_some d l c s : starts_with_text d l c s ->
  text_merge_target d (hd_error l) = Some (c, s).
Proof. intros ((l0 & ->) & H). simpl. now rewrite H. Qed.
Lemma tmh_none d l : no_text_start d l -> text_merge_target d (hd_error l) = None.
Proof. intros H. destruct l as [|c l]; [reflexivity|]. simpl. now rewrite (H l c eq_refl). Qed.

Lemma replaced_out k n' p c l1 l2 x q :
  kw n' k -> k (Par p) = l1 ++ c :: l2 -> x <> c -> ~ In c (upk k (Par p) (l1 ++ x :: l2) q).
Proof.
  intros W Hk Hx H. unfold upk in H. destruct (key_dec (Par p) q) as [<-|E].
  - pose proof (kw_nodup _ _ W (Par p)) as ND. rewrite Hk in ND.
    apply nodup_mid in ND as [_ ND]. apply ND.
    apply in_app_or in H. apply in_or_app. simpl in H. destruct H as [H|[H|H]]; auto. congruence.
  - apply E. eapply kw_disj; eauto. rewrite Hk. apply in_elt.
Qed.

Section User.
  Context (d : dom) (HR : reachable d).
  Notation n := (length (nodes d)).

  Ltac start := destruct (reachable_good d HR) as (k & G).

  (** C26 *)
  Lemma u_append_doc p e l : node_id d p -> children d p l ->
    gives d (op_cost (AppendDoc p e)) (append_document_node p e d) (fun '(x, d') =>
      x = n /\ children d' p (l ++ [x]) /\ children d' x [] /\
      same_children_but d d' [p] /\ elem_content d' x e /\ keeps_but d d' [x]).
  Proof.
    intros Hp Hl. start. apply (kc _ _ _ _ G) in Hl. subst l.
    eapply gives_imp; [eapply gives_safe; [exact G|apply append_document_node_ok; eauto|]|].
    - intros R. exact (nj_inv _ _ (nj_run [] (AppendDoc p e) d R)).
    - intros [x d'] (-> & Hn & G' & C & K). split; auto.
      split; [apply (kc _ _ _ _ G'); now rewrite upk_eq|].
      split; [|split; [|auto]].
      + apply (kc _ _ _ _ G'). destruct Hp. rewrite upk_par by lia. symmetry.
        eapply par_empty; [apply G|]. lia.
      + eapply same_but; eauto. intros q Hq. apply upk_par. intros ->. apply Hq. now left.
  Qed.

  Lemma new_leaf k d' k' p x l : Good d k -> Good d' (upk k (Par p) l) -> p < x -> n <= x ->
    k' = upk k (Par p) l -> children d' x [].
  Proof.
    intros G G' Hp Hx ->. apply (kc _ _ _ _ G'). rewrite upk_par by lia. symmetry.
    eapply par_empty; [apply G|]. lia.
  Qed.
  Lemma upk_same_but k d' p l : Good d k -> Good d' (upk k (Par p) l) ->
    same_children_but d d' [p].
  Proof.
    intros G G'. eapply same_but; eauto. intros q Hq. apply upk_par. intros ->.
    apply Hq. now left.
  Qed.
  Lemma fresh_removed k d' : Good d k -> Good d' k -> kind d' n = Some TRemoved ->
    removed d' [n].
  Proof.
    intros G G' K. eapply removed_intro; eauto.
    - intros x [<-|[]]. auto.
    - intros x [<-|[]]. split; [eapply par_empty; [apply G|lia]|].
      intros q. apply (fresh_not_in d k). apply G.
  Qed.

  (** C29, element *)
  Lemma u_prepend_doc p e l : node_id d p -> children d p l ->
    gives d (op_cost (PrependDoc p e)) (prepend_document_node p e d) (fun '(x, d') =>
      x = n /\ children d' p (x :: l) /\ children d' x [] /\
      same_children_but d d' [p] /\ elem_content d' x e /\ keeps_but d d' [x]).
  Proof.
    intros Hp Hl. start. apply (kc _ _ _ _ G) in Hl. subst l.
    eapply gives_imp; [eapply gives_safe; [exact G|apply prepend_document_node_ok; eauto|]|].
    - intros R. exact (nj_inv _ _ (nj_run [] (PrependDoc p e) d R)).
    - intros [x d'] (-> & Hn & G' & C & K). split; auto.
      split; [apply (kc _ _ _ _ G'); now rewrite upk_eq|].
      split; [eapply new_leaf; eauto; apply Hp|]. split; [eapply upk_same_but; eauto|auto].
  Qed.

  (** C27, new node *)
  Lemma u_append_text_new p s l : node_id d p -> children d p l -> no_text_end d l ->
    gives d 1 (append_text_node p s d) (fun '(x, d') =>
      x = n /\ children d' p (l ++ [x]) /\ children d' x [] /\
      same_children_but d d' [p] /\ text_content d' x s /\ keeps_but d d' [x]).
  Proof.
    intros Hp Hl HT. start. apply (kc _ _ _ _ G) in Hl. subst l.
    eapply gives_imp; [eapply gives_safe; [exact G|apply append_text_node_ok; eauto|]|].
    - intros R. exact (nj_inv _ _ (nj_run [] (AppendText p s) d R)).
    - intros [x d'] (Hn & H). rewrite (tmt_none _ _ HT) in H. destruct H as (-> & G' & C & K).
      split; auto. split; [apply (kc _ _ _ _ G'); now rewrite upk_eq|].
      split; [eapply new_leaf; eauto; apply Hp|]. split; [eapply upk_same_but; eauto|auto].
  Qed.
  (** C27, merged into the last child *)
  Lemma u_append_text_merge p s l c old : node_id d p -> children d p l ->
    ends_with_text d l c old ->
    gives d 1 (append_text_node p s d) (fun '(x, d') =>
      x = c /\ same_children_but d d' [] /\ retexted d d' c (old ++ [cSP] ++ s) /\
      removed d' [n] /\ keeps_but d d' [c; n]).
  Proof.
    intros Hp Hl HT. start. apply (kc _ _ _ _ G) in Hl. subst l.
    eapply gives_imp; [eapply gives_safe; [exact G|apply append_text_node_ok; eauto|]|].
    - intros R. exact (nj_inv _ _ (nj_run [] (AppendText p s) d R)).
    - intros [x d'] (Hn & H). rewrite (tmt_some _ _ _ _ HT) in H.
      destruct H as (-> & G' & C & K & Q).
      split; auto. split; [eapply same_but; eauto|]. split; auto. split; auto.
      eapply fresh_removed; eauto.
  Qed.
  (** C29, text *)
  Lemma u_prepend_text_new p s l : node_id d p -> children d p l -> no_text_start d l ->
    gives d 1 (prepend_text_node p s d) (fun '(x, d') =>
      x = n /\ children d' p (x :: l) /\ children d' x [] /\
      same_children_but d d' [p] /\ text_content d' x s /\ keeps_but d d' [x]).
  Proof.
    intros Hp Hl HT. start. apply (kc _ _ _ _ G) in Hl. subst l.
    eapply gives_imp; [eapply gives_safe; [exact G|apply prepend_text_node_ok; eauto|]|].
    - intros R. exact (nj_inv _ _ (nj_run [] (PrependText p s) d R)).
    - intros [x d'] (Hn & -> & H). rewrite (tmh_none _ _ HT) in H. destruct H as (G' & C & K).
      split; auto. split; [apply (kc _ _ _ _ G'); now rewrite upk_eq|].
      split; [eapply new_leaf; eauto; apply Hp|]. split; [eapply upk_same_but; eauto|auto].
  Qed.
  Lemma u_prepend_text_merge p s l c old : node_id d p -> children d p l ->
    starts_with_text d l c old ->
    gives d 1 (prepend_text_node p s d) (fun '(x, d') =>
      x = n /\ same_children_but d d' [] /\ retexted d d' c (s ++ [cSP] ++ old) /\
      removed d' [n] /\ keeps_but d d' [c; n]).
  Proof.
    intros Hp Hl HT. start. apply (kc _ _ _ _ G) in Hl. subst l.
    eapply gives_imp; [eapply gives_safe; [exact G|apply prepend_text_node_ok; eauto|]|].
    - intros R. exact (nj_inv _ _ (nj_run [] (PrependText p s) d R)).
    - intros [x d'] (Hn & -> & H). rewrite (tmh_some _ _ _ _ HT) in H.
      destruct H as (G' & C & K & Q).
      split; auto. split; [eapply same_but; eauto|]. split; auto. split; auto.
      eapply fresh_removed; eauto.
  Qed.

  (** C24 *)
  Lemma u_remove p c l1 l2 D : children d p (l1 ++ c :: l2) -> preorder d c D ->
    exists d', remove_node c d = Ok d' /\ children d' p (l1 ++ l2) /\ removed d' D /\
      same_children_but d d' (p :: D) /\ keeps_but d d' D /\
      length (nodes d') = n.
  Proof.
    intros Hl HD. start. apply (kc _ _ _ _ G) in Hl. symmetry in Hl.
    assert (Hc : In c (k (Par p))) by (rewrite Hl; apply in_elt).
    apply (pk _ _ _ _ G) in HD; [|eapply k_nz; [apply G|eauto]]. subst D.
    destruct (remove_node_good d k c G (ex_intro (fun q => In c (k q)) _ Hc)) as (d' & E & G' & Hn & K & R).
    pose proof (inv_kw _ _ (g_inv _ _ G)) as W.
    exists d'. split; auto. split; [|split; [|split; [|split]]]; auto.
    - apply (kc _ _ _ _ G'). symmetry. eapply cut_parent; eauto.
    - eapply removed_intro; eauto. intros x Hx. split; [eapply cut_inside; eauto|].
      intros q Hq. apply cut_in in Hq. tauto.
    - eapply same_but; eauto. intros q Hq. simpl in Hq. eapply cut_far; eauto.
  Qed.

  (** C25 *)
  Lemma u_remove_children p l D : p <> 0 -> children d p l -> preorders d l D ->
    exists d', remove_children p d = Ok d' /\ children d' p [] /\ removed d' D /\
      same_children_but d d' (p :: D) /\ keeps_but d d' D /\
      length (nodes d') = n.
  Proof.
    intros Hp Hl HD. start. apply (kc _ _ _ _ G) in Hl. subst l.
    apply (psk _ _ _ _ G) in HD; [|intros; eapply k_nz; [apply G|eauto]]. subst D.
    destruct (remove_children_good d k p G Hp) as (d' & E & G' & Hn & K & R).
    pose proof (inv_kw _ _ (g_inv _ _ G)) as W.
    exists d'. split; auto. split; [|split; [|split; [|split]]]; auto.
    - apply (kc _ _ _ _ G'). symmetry. eapply call_parent; eauto.
    - eapply removed_intro; eauto. intros x Hx. split; [eapply call_inside; eauto|].
      intros q Hq. apply cut_in in Hq. tauto.
    - eapply same_but; eauto. intros q Hq. simpl in Hq. eapply call_far; eauto.
  Qed.
  Lemma u_set_text p s l D : node_id d p -> children d p l -> preorders d l D ->
    gives d 1 (set_text_content p s d) (fun d' =>
      children d' p [n] /\ children d' n [] /\ text_content d' n s /\ removed d' D /\
      same_children_but d d' (p :: D) /\ keeps_but d d' (n :: D)).
  Proof.
    intros Hp Hl HD. start. apply (kc _ _ _ _ G) in Hl. subst l.
    apply (psk _ _ _ _ G) in HD; [|intros; eapply k_nz; [apply G|eauto]]. subst D.
    pose proof (inv_kw _ _ (g_inv _ _ G)) as W.
    eapply gives_imp; [eapply gives_safe; [exact G|apply set_text_content_ok; eauto|]|].
    - intros R. exact (nj_run [] (SetText p s) d R).
    - intros d' (Hn & G' & C & R & K).
      split; [apply (kc _ _ _ _ G'); now rewrite upk_eq|].
      assert (NP : forall x, In x (pres n k (k (Par p))) -> x < n /\ x <> p).
      { intros x Hx. split.
        - apply pres_in in Hx as (c & Hc & Hx).
          destruct (pre_parent _ _ _ _ W Hx) as [->|(y & Hy & _)];
            [apply (kw_bound _ _ W) in Hc|apply (kw_bound _ _ W) in Hy]; lia.
        - intros ->. eapply call_out; eauto. }
      split; [|split; [auto|split; [|split; [|auto]]]].
      + apply (kc _ _ _ _ G'). destruct Hp. rewrite upk_par by lia. symmetry.
        unfold cut. rewrite (par_empty d k n) by (try apply G; lia). reflexivity.
      + eapply removed_intro; eauto. intros x Hx. destruct (NP x Hx). split.
        * rewrite upk_par by auto. eapply call_inside; eauto.
        * intros q Hq. apply upk_in in Hq as [[Ex|[]]|Hq]; [cbv beta in *; lia|].
          apply cut_in in Hq. tauto.
      + eapply same_but; eauto. intros q Hq. simpl in Hq. rewrite upk_par by auto.
        eapply call_far; eauto.
  Qed.

  (** C31 *)
  Lemma u_replace_doc p c l1 l2 e : children d p (l1 ++ c :: l2) ->
    gives d (op_cost (ReplaceDoc c e)) (replace_with_document_node c e d) (fun '(x, d') =>
      x = n /\ children d' p (l1 ++ x :: l2) /\ children d' x [] /\
      same_children_but d d' [p] /\ elem_content d' x e /\
      kind d' c = Some TRemoved /\ ~ attached d' c /\ keeps_but d d' [x; c]).
  Proof.
    intros Hl. start. apply (kc _ _ _ _ G) in Hl. symmetry in Hl.
    pose proof (inv_kw _ _ (g_inv _ _ G)) as W.
    assert (Hc : In c (k (Par p))) by (rewrite Hl; apply in_elt).
    eapply gives_imp; [eapply gives_safe; [exact G|eapply replace_with_document_node_ok; eauto|]|].
    - intros R. exact (nj_inv _ _ (nj_run [] (ReplaceDoc c e) d R)).
    - intros [x d'] (-> & Hn & G' & C & K & Q). split; auto.
      pose proof (kw_order _ _ W _ _ Hc). pose proof (kw_bound _ _ W _ _ Hc).
      split; [apply (kc _ _ _ _ G'); now rewrite upk_eq|].
      split; [eapply new_leaf; eauto; lia|]. split; [eapply upk_same_but; eauto|].
      split; auto. split; auto. split; auto. intros A.
      apply (attached_iff _ _ _ (g_inv _ _ G')) in A as (q & Hq).
      eapply replaced_out with (x := n); eauto; lia.
  Qed.

  (** C32 *)
  Lemma u_replace_text_new p c l1 l2 s : children d p (l1 ++ c :: l2) ->
    no_text_end d l1 -> no_text_start d l2 ->
    gives d 1 (replace_with_text_node c s d) (fun '(x, d') =>
      x = n /\ children d' p (l1 ++ x :: l2) /\ children d' x [] /\
      same_children_but d d' [p] /\ text_content d' x s /\
      kind d' c = Some TRemoved /\ ~ attached d' c /\ keeps_but d d' [x; c]).
  Proof.
    intros Hl T1 T2. start. apply (kc _ _ _ _ G) in Hl. symmetry in Hl.
    pose proof (inv_kw _ _ (g_inv _ _ G)) as W.
    assert (Hc : In c (k (Par p))) by (rewrite Hl; apply in_elt).
    eapply gives_imp; [eapply gives_safe; [exact G|eapply replace_with_text_node_ok; eauto|]|].
    - intros R. exact (nj_inv _ _ (nj_run [] (ReplaceText c s) d R)).
    - intros [x d'] (-> & Hn & H). unfold replace_target in H.
      rewrite (tmt_none _ _ T1), (tmh_none _ _ T2) in H. destruct H as (G' & C & K & Q).
      split; auto.
      pose proof (kw_order _ _ W _ _ Hc). pose proof (kw_bound _ _ W _ _ Hc).
      split; [apply (kc _ _ _ _ G'); now rewrite upk_eq|].
      split; [eapply new_leaf; eauto; lia|]. split; [eapply upk_same_but; eauto|].
      split; auto. split; auto. split; auto. intros A.
      apply (attached_iff _ _ _ (g_inv _ _ G')) in A as (q & Hq).
      eapply replaced_out with (x := n); eauto; lia.
  Qed.
  Lemma merges_target l1 l2 s t s' : merges_into d l1 l2 s t s' ->
    replace_target d l1 l2 s = Some (t, s').
  Proof.
    unfold replace_target. intros [(old & H & ->)|(H & old & H2 & ->)].
    - now rewrite (tmt_some _ _ _ _ H).
    - now rewrite (tmt_none _ _ H), (tmh_some _ _ _ _ H2).
  Qed.
  Lemma u_replace_text_merge p c l1 l2 s t s' D : children d p (l1 ++ c :: l2) ->
    merges_into d l1 l2 s t s' -> preorder d c D ->
    gives d 1 (replace_with_text_node c s d) (fun '(x, d') =>
      x = n /\ children d' p (l1 ++ l2) /\ retexted d d' t s' /\ removed d' (n :: D) /\
      same_children_but d d' (p :: D) /\ keeps_but d d' (t :: n :: D)).
  Proof.
    intros Hl T HD. start. apply (kc _ _ _ _ G) in Hl. symmetry in Hl.
    pose proof (inv_kw _ _ (g_inv _ _ G)) as W.
    assert (Hc : In c (k (Par p))) by (rewrite Hl; apply in_elt).
    apply (pk _ _ _ _ G) in HD; [|eapply k_nz; [apply G|eauto]]. subst D.
    eapply gives_imp; [eapply gives_safe; [exact G|eapply replace_with_text_node_ok; eauto|]|].
    - intros R. exact (nj_inv _ _ (nj_run [] (ReplaceText c s) d R)).
    - intros [x d'] (-> & Hn & H). rewrite (merges_target _ _ _ _ _ T) in H.
      destruct H as (G' & C & K & R & Q). split; auto.
      split; [apply (kc _ _ _ _ G'); symmetry; eapply cut_parent; eauto|].
      split; auto. split; [|split; auto].
      + eapply removed_intro; eauto.
        * intros y [<-|Hy]; auto.
        * intros y [<-|Hy].
          -- split; [unfold cut; rewrite (par_empty d k n) by (try apply G; lia); reflexivity|].
             intros q Hq. apply cut_in in Hq as [Hq _]. revert Hq. apply fresh_not_in, G.
          -- split; [eapply cut_inside; eauto|]. intros q Hq. apply cut_in in Hq. tauto.
      + eapply same_but; eauto. intros q Hq. simpl in Hq. eapply cut_far; eauto.
  Qed.
End User.

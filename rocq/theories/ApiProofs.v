(** * From the invariant to statements about histories of API calls. *)
From Coq Require Import List NArith Arith Bool Lia.
From Verif Require Import Base TrieModel DomModel ParserModel EditModel ReadModel DomSpec ApiSpec
  Lemmas TrieProofs Tables Inv Surgery Attach Replace Link RegProofs ParseSafe ParseTree
  ParseLoop Walk EditProofs EditOps EditHtml NodeEdit AttrProofs.
Import ListNotations.
Local Open Scope nat_scope.

Lemma ends_safe {A} (o : outcome A) Q : safe False Q o -> ends_in o Q.
Proof. destruct o as [a|u|j|]; simpl; auto. destruct u; auto. Qed.

Lemma ends_imp {A} (o : outcome A) (P Q : A -> Prop) :
  ends_in o P -> (forall a, P a -> Q a) -> ends_in o Q.
Proof. destruct o; simpl; auto. Qed.

(** ** A parsed fragment *)
Record frag (d : dom) (k : kids) (d1 : dom) (k1 : kids) (rest : list nat) : Prop := {
  fr_good : Good d1 k1;
  fr_top : k1 (Flo (length (nodes d))) = length (nodes d) :: rest;
  fr_gt : forall c, In c rest -> length (nodes d) < c;
  fr_leaf : forall c s, In c (length (nodes d) :: rest) -> text_of d1 c = Some s ->
     k1 (Par c) = [];
  fr_par : forall p, p < length (nodes d) -> k1 (Par p) = k (Par p);
  fr_keep : keeps (length (nodes d)) d d1 }.

Lemma pres_hd n k l : pres n k l <> [] -> exists c l', l = c :: l'.
Proof. destruct l; simpl; eauto. congruence. Qed.

Lemma frag_ok d k bl h d1 :
  Good d k -> parse_extra (Some bl) h d = Ok (true, d1) ->
  length (nodes d) < length (nodes d1) ->
  exists k1 rest, frag d k d1 k1 rest.
Proof.
  intros G E Hl. pose proof (safe_inv _ _ _ _ (parse_extra_ok h bl d k G) E) as (k1 & P & _).
  set (n0 := length (nodes d)) in *. destruct P as [PG Ppre Pn Pold Pleaf Ptext Pkeep].
  pose proof (inv_kw _ _ (g_inv _ _ PG)) as W.
  destruct (length (nodes d1) - n0) as [|m] eqn:Em; [lia|]. simpl in Ppre.
  destruct (pres_hd (length (nodes d1)) k1 (k1 (Flo n0))) as (c & rest & Ek).
  { rewrite Ppre. discriminate. }
  rewrite Ek in Ppre. unfold pres in Ppre. simpl in Ppre.
  assert (Hc : c = n0).
  { rewrite pre_eq in Ppre by auto. simpl in Ppre. congruence. }
  subst c.
  assert (Hin : forall c, In c rest -> n0 < c).
  { intros c Hc. pose proof (kw_nodup _ _ W (Flo n0)) as Nd. rewrite Ek in Nd.
    inversion Nd; subst.
    assert (Hf : In c (k1 (Flo n0))) by (rewrite Ek; simpl; auto).
    pose proof (kw_flo _ _ W _ _ Hf). assert (c <> n0) by congruence. lia. }
  exists k1, rest. constructor; auto.
  - intros c s Hc Ht. destruct (k1 (Par c)) as [|x l] eqn:E1; auto. exfalso.
    destruct (Pleaf c) as (tag & Htag & _).
    + destruct Hc as [<-|Hc]; auto. apply Hin in Hc. lia.
    + rewrite E1. discriminate.
    + unfold tag_name, text_of in *. destruct (nth_error (nodes d1) c) as [[i ty pay]|]; [|discriminate].
      destruct ty; discriminate.
  - intros p Hp. apply Pold; [discriminate|]. exact Hp.
Qed.

Lemma failed_ok d k bl h d1 :
  Good d k -> parse_extra (Some bl) h d = Ok (false, d1) ->
  exists k1, Good d1 k1 /\ (forall p, p < length (nodes d) -> k1 (Par p) = k (Par p)) /\
     keeps (length (nodes d)) d d1 /\ length (nodes d) <= length (nodes d1).
Proof.
  intros G E. pose proof (safe_inv _ _ _ _ (parse_extra_ok h bl d k G) E) as (k1 & P & _).
  destruct P as [PG Ppre Pn Pold Pleaf Ptext Pkeep].
  exists k1. split; auto. split; auto. intros p Hp. apply Pold; [discriminate|]. exact Hp.
Qed.

(** The three fragment operations, after a successful parse. *)
Lemma append_html_frag d k bl h d1 k1 rest p :
  Good d k -> parse_extra (Some bl) h d = Ok (true, d1) -> frag d k d1 k1 rest ->
  node_id d p ->
  safe False (append_frag_post d1 k1 (length (nodes d)) p rest) (append_html (Some bl) p h d).
Proof.
  intros G E F Hp. unfold append_html. rewrite E. cbn [bind negb].
  destruct F. apply append_frag_ok; auto.
  intros c Hc. rewrite fr_par0 in Hc by apply Hp.
  apply (kw_bound _ _ (inv_kw _ _ (g_inv _ _ G))) in Hc. lia.
Qed.
Lemma prepend_html_frag d k bl h d1 k1 rest p :
  Good d k -> parse_extra (Some bl) h d = Ok (true, d1) -> frag d k d1 k1 rest ->
  node_id d p ->
  safe False (prepend_frag_post d1 k1 (length (nodes d)) p rest) (prepend_html (Some bl) p h d).
Proof.
  intros G E F Hp. unfold prepend_html. rewrite E. cbn [bind negb].
  destruct F. apply prepend_frag_ok; auto.
  intros c Hc. rewrite fr_par0 in Hc by apply Hp.
  apply (kw_bound _ _ (inv_kw _ _ (g_inv _ _ G))) in Hc. lia.
Qed.
Lemma replace_html_frag d k bl h d1 k1 rest p n l1 l2 :
  Good d k -> parse_extra (Some bl) h d = Ok (true, d1) -> frag d k d1 k1 rest ->
  k (Par p) = l1 ++ n :: l2 -> replace_guard d1 (length (nodes d)) rest l1 l2 ->
  safe False (replace_frag_post d1 k1 (length (nodes d)) p rest n l1 l2)
       (replace_with_html (Some bl) n h d).
Proof.
  intros G E F Ek Hg. unfold replace_with_html. rewrite E. cbn [bind negb].
  pose proof (inv_kw _ _ (g_inv _ _ G)) as W.
  assert (Hn : In n (k (Par p))) by (rewrite Ek; apply in_elt).
  pose proof (kw_order _ _ W _ _ Hn) as Ho. pose proof (kw_bound _ _ W _ _ Hn) as Hb.
  destruct F. apply replace_frag_ok; auto.
  - lia.
  - intros c Hc. rewrite fr_par0 in Hc by lia. apply (kw_bound _ _ W) in Hc. lia.
  - rewrite fr_par0 by lia. auto.
Qed.

(** Guard of the replacement, from the user-level condition. *)
Lemma text_target_none d c : text_of d c = None -> text_merge_target d (Some c) = None.
Proof. intros H. simpl. now rewrite H. Qed.

Lemma guard_ok d k d1 k1 rest l1 l2 :
  frag d k d1 k1 rest -> ~ replace_bad d d1 l1 l2 ->
  replace_guard d1 (length (nodes d)) rest l1 l2.
Proof.
  intros F Hbad. set (n0 := length (nodes d)) in *.
  assert (Hs : sibs d1 n0 (n0 :: rest)).
  { apply (sibs_at d1 k1 (Flo n0) [] (n0 :: rest)); [apply (fr_good _ _ _ _ _ F)|].
    apply (fr_top _ _ _ _ _ F). }
  split.
  - unfold single_merge. destruct rest as [|r l]; [|congruence].
    destruct (text_of d1 n0) as [s|] eqn:Es; [|congruence].
    intros Hm ->. apply Hbad. left. split; auto. split; [exists s; auto|]. split; auto.
    unfold replace_target in Hm. simpl in Hm.
    destruct l2 as [|c l2]; simpl in Hm; [congruence|].
    destruct (text_of d1 c) as [o|] eqn:Eo; [|congruence]. exists c, l2. split; auto. exists o; auto.
  - intros Hr Ht. apply Hbad. right. unfold T2 in Ht.
    assert (Hl : exists b, rest = [b]).
    { destruct rest as [|r [|r' l]]; [congruence|eauto|].
      exfalso. unfold T1 in Ht. destruct (m_last d1 n0 (r :: r' :: l) l2), (m_first d1 n0 l1);
        discriminate. }
    destruct Hl as [b ->]. exists b. split; auto.
    unfold T1 in Ht. unfold m_last, m_first in Ht. simpl last in Ht.
    destruct (text_of d1 b) as [sb|] eqn:Eb.
    2:{ destruct (text_of d1 n0) as [s|]; [|discriminate].
        destruct (text_merge_target d1 (last_error l1)) as [[? ?]|]; discriminate. }
    destruct (text_merge_target d1 (hd_error l2)) as [[c2 o2]|] eqn:E2.
    2:{ destruct (text_of d1 n0) as [s|]; [|discriminate].
        destruct (text_merge_target d1 (last_error l1)) as [[? ?]|]; discriminate. }
    destruct (text_of d1 n0) as [s|] eqn:Es; [|discriminate].
    destruct (text_merge_target d1 (last_error l1)) as [[c1 o1]|] eqn:E1; [|discriminate].
    apply tmt_in in E1 as [E1 F1]. apply tmt_in in E2 as [E2 F2].
    split; [exists s; auto|]. split; [exists sb; auto|]. split.
    + apply last_error_some in E1 as [l0 ->]. exists c1, l0. split; auto. exists o1; auto.
    + destruct l2 as [|c l2]; [discriminate|]. injection E2 as ->. exists c2, l2.
      split; auto. exists o2; auto.
Qed.

(** ** Histories keep the invariant *)
Definition quote_end (o : op) : Prop := ends_quote (fragment o).

Lemma run_good d k bl o :
  Good d k -> valid d bl o ->
  safe (quote_end o) (fun d' => exists k', Good d' k') (run bl o d).
Proof.
  intros G V. pose proof (inv_kw _ _ (g_inv _ _ G)) as W.
  assert (NN : forall Q (x : outcome dom), safe False Q x -> safe (quote_end o) Q x).
  { intros Q x H. eapply safe_neg; [exact H|contradiction]. }
  assert (Hpar : forall n, attached d n -> exists p l1 l2, k (Par p) = l1 ++ n :: l2).
  { intros n Hn. apply (attached_iff d k n (g_inv _ _ G)) in Hn as [p Hp].
    apply in_split in Hp as (l1 & l2 & E). eauto. }
  assert (HH : forall (F : bool * dom -> outcome (nat * dom)) h,
     (forall d1, parse_extra (Some bl) h d = Ok (false, d1) -> F (false, d1) = Ok (0, d1)) ->
     (forall d1, parse_extra (Some bl) h d = Ok (true, d1) ->
        safe False (fun r => exists k', Good (snd r) k') (F (true, d1))) ->
     safe (ends_quote h) (fun d' => exists k', Good d' k')
       (let* '(_, d) := (let* r := parse_extra (Some bl) h d in F r) in Ok d)).
  { intros F h H1 H2. eapply safe_bind with (P := fun r => exists k', Good (snd r) k').
    2:{ intros [x d'] H. exact H. }
    pose proof (parse_extra_ok h bl d k G) as HS.
    destruct (parse_extra (Some bl) h d) as [[ok d1]|u|j|] eqn:E; simpl in *; auto.
    destruct ok.
    - eapply safe_neg; [apply H2; auto|contradiction].
    - rewrite H1 by auto. simpl. destruct (failed_ok d k bl h d1 G E) as (k1 & G1 & _). eauto. }
  destruct o; simpl in V; unfold run; unfold quote_end in *; simpl fragment in *.
  - apply NN. eapply safe_bind; [apply (append_document_node_ok d k G); exact V|].
    intros [x d'] (_ & _ & G' & _). simpl. eauto.
  - apply NN. eapply safe_bind; [apply (append_text_node_ok d k G); exact V|].
    intros [x d'] (_ & H). simpl.
    destruct (text_merge_target d (last_error (k (Par p)))) as [[c old]|]; destruct H as (_ & G' & _); eauto.
  - destruct V as [Hp Hn]. unfold append_html.
    apply (HH (fun r => _) h).
    + intros d1 E. reflexivity.
    + intros d1 E. destruct (frag_ok d k bl h d1 G E (Hn d1 E)) as (k1 & rest & F).
      pose proof (append_html_frag d k bl h d1 k1 rest p G E F Hp) as HA.
      unfold append_html in HA. rewrite E in HA. cbn [bind] in HA.
      eapply safe_imp; [exact HA|]. intros [x d'] H. unfold append_frag_post in H. simpl.
      destruct (text_merge_target d1 (last_error (k1 (Par p)))) as [[c old]|];
        [destruct (text_of d1 (length (nodes d)))|]; destruct H as [[_ H] _]; eauto.
  - apply NN. eapply safe_bind; [apply (prepend_document_node_ok d k G); exact V|].
    intros [x d'] (_ & _ & G' & _). simpl. eauto.
  - apply NN. eapply safe_bind; [apply (prepend_text_node_ok d k G); exact V|].
    intros [x d'] (_ & H). simpl.
    destruct (text_merge_target d (hd_error (k (Par p)))) as [[c old]|];
      repeat (destruct H as [H ?]); eauto; destruct H0; eauto.
  - destruct V as [Hp Hn]. unfold prepend_html.
    apply (HH (fun r => _) h).
    + intros d1 E. reflexivity.
    + intros d1 E. destruct (frag_ok d k bl h d1 G E (Hn d1 E)) as (k1 & rest & F).
      pose proof (prepend_html_frag d k bl h d1 k1 rest p G E F Hp) as HA.
      unfold prepend_html in HA. rewrite E in HA. cbn [bind] in HA.
      eapply safe_imp; [exact HA|]. intros [x d'] H. unfold prepend_frag_post in H. simpl.
      destruct (text_merge_target d1 (hd_error (k1 (Par p)))) as [[c old]|];
        [destruct (text_of d1 (last rest (length (nodes d))))|]; destruct H as [[_ H] _]; eauto.
  - apply NN. destruct (Hpar n V) as (p & l1 & l2 & Ek).
    eapply safe_bind; [apply (replace_with_document_node_ok d k G p n l1 l2); exact Ek|].
    intros [x d'] (_ & _ & G' & _). simpl. eauto.
  - apply NN. destruct (Hpar n V) as (p & l1 & l2 & Ek).
    eapply safe_bind; [apply (replace_with_text_node_ok d k G p n l1 l2); exact Ek|].
    intros [x d'] (_ & _ & H). simpl.
    destruct (replace_target d l1 l2 s) as [[c s']|]; destruct H as (G' & _); eauto.
  - destruct V as (Ha & Hn & Hg). destruct (Hpar n Ha) as (p & l1 & l2 & Ek).
    unfold replace_with_html.
    apply (HH (fun r => _) h).
    + intros d1 E. reflexivity.
    + intros d1 E. destruct (frag_ok d k bl h d1 G E (Hn d1 E)) as (k1 & rest & F).
      assert (Hgd : replace_guard d1 (length (nodes d)) rest l1 l2).
      { eapply guard_ok; eauto. apply (Hg d1 p l1 l2 E).
        apply (children_k d k p _ (g_inv _ _ G)). auto. }
      pose proof (replace_html_frag d k bl h d1 k1 rest p n l1 l2 G E F Ek Hgd) as HA.
      unfold replace_with_html in HA. rewrite E in HA. cbn [bind] in HA.
      eapply safe_imp; [exact HA|]. intros [x d'] H. unfold replace_frag_post in H. simpl.
      destruct H as [_ H].
      destruct (single_merge d1 (length (nodes d)) rest l1 l2) as [[c s']|].
      * destruct H as (G' & _). eauto.
      * destruct H as (H1 & H2 & _). destruct rest as [|r l].
        -- destruct (H1 eq_refl) as [G' _]. eauto.
        -- destruct H2 as [G' _]; [discriminate|]. eauto.
  - apply NN. apply (attached_iff d k n (g_inv _ _ G)) in V as [p Hp].
    destruct (remove_node_good d k n G) as (d' & -> & G' & _); [eauto|]. simpl. eauto.
  - apply NN. destruct (remove_children_good d k n G V) as (d' & -> & G' & _). simpl. eauto.
  - apply NN. eapply safe_imp; [apply (set_text_content_ok d k G); exact V|].
    intros d' (_ & G' & _). eauto.
  - apply NN. eapply safe_imp; [apply (add_bool_property_user d k); auto; apply V|].
    intros d' (G' & _). eauto.
  - apply NN. eapply safe_imp; [apply (add_property_user d k); auto; apply V|].
    intros d' (G' & _). eauto.
  - apply NN. destruct V. destruct (remove_bool_property_user d k n b G) as (d' & -> & G' & _); [lia|].
    simpl. eauto.
  - apply NN. destruct V. destruct (remove_property_user d k n k0 G) as (d' & -> & G' & _); [lia|].
    simpl. eauto.
  - apply NN. destruct V. eapply safe_bind; [apply (set_property_value_user d k); auto; lia|].
    intros [ok d'] (G' & _). simpl. eauto.
  - apply NN. destruct (kind_text_of d k n G V) as [old T]. rewrite (add_text_eq d k n s app old G T).
    simpl. exists k. now apply text_set_good.
  - apply NN. eapply safe_imp; [apply (set_tag_good d k n tag paired G V)|]. intros d' (G' & _). eauto.
Qed.

Lemma create_good t d : create_dom t = Ok (Some d) -> exists k, PW 2 empty_dom no_kids (Par 1) d k.
Proof.
  intros E. unfold create_dom in E. apply bind_ok in E as ([ok d'] & E & H).
  destruct ok; [|discriminate]. injection H as <-.
  pose proof (safe_inv _ _ _ _ (parse_root_ok t) E) as (k & P & _). eauto.
Qed.

Lemma reachable_good d : reachable d -> exists k, Good d k.
Proof.
  induction 1 as [t d E|d bl o d' _ (k & G) V E].
  - destruct (create_good t d E) as (k & P). exists k. apply P.
  - exact (safe_inv _ _ _ _ (run_good d k bl o G V) E).
Qed.

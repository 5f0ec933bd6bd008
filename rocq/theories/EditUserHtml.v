(** * User-level statements of the fragment operations, for reachable DOMs. *)
From Coq Require Import List NArith Arith Bool Lia.
From Verif Require Import Base TrieModel DomModel ParserModel EditModel ReadModel Lemmas
     TrieProofs Tables Inv Surgery DomSpec Attach Replace Link RegProofs ParseSafe ParseTree
     ParseLoop Walk EditProofs EditOps EditHtml AttrProofs ApiSpec ApiProofs NoJump EditUser.
Import ListNotations.
Local Open Scope nat_scope.

Lemma safe_nj {A} (o : outcome A) Q : safe False Q o -> nj any o -> exists a, o = Ok a /\ Q a.
Proof. destruct o as [a|u|j|]; simpl; try tauto; eauto. destruct u; tauto. Qed.

Scheme preorder_mut := Minimality for preorder Sort Prop
  with preorders_mut := Minimality for preorders Sort Prop.
Combined Scheme preorder_both_ind from preorder_mut, preorders_mut.

Lemma split_lst (n : nat) rest : n :: rest = removelast (n :: rest) ++ [last rest n].
Proof.
  rewrite (app_removelast_last 0) at 1 by discriminate. do 2 f_equal.
  destruct rest as [|a r]; [reflexivity|].
  change (last (n :: a :: r) 0) with (last (a :: r) 0).
  revert a; induction r as [|b r IH]; intros a; [reflexivity|]. apply (IH b).
Qed.

Lemma removelast_in (l : list nat) x : In x (removelast l) -> In x l.
Proof.
  destruct l as [|a l] using rev_ind; [auto|]. rewrite removelast_last. intros.
  apply in_or_app; auto.
Qed.

Section Html.
  Context (d : dom) (HR : reachable d) (bl h : bytes).
  Notation n := (length (nodes d)).

  Ltac start := destruct (reachable_good d HR) as (k & G).

  (** What parsing a fragment does to the DOM, before it is put in place. *)
  Lemma u_fragment ok d1 : parse_extra (Some bl) h d = Ok (ok, d1) ->
    n <= length (nodes d1) /\
    (forall q m, q < n -> (children d1 q m <-> children d q m)) /\
    (forall q, q < n -> same_content d d1 q) /\
    (forall c, n <= c -> ~ attached d1 c \/ exists p l, n <= p /\ children d1 p l /\ In c l).
  Proof.
    intros E. start. pose proof (parse_extra_ok h bl d k G) as P. rewrite E in P.
    cbn in P. destruct P as (k1 & W & _).
    pose proof (pw_good _ _ _ _ _ _ W) as G1.
    assert (KO : forall q, q < n -> k1 (Par q) = k (Par q)).
    { intros q Hq. apply (pw_old _ _ _ _ _ _ W); [discriminate|exact Hq]. }
    split; [apply (pw_n _ _ _ _ _ _ W)|]. split; [|split].
    - intros q m Hq. rewrite (kc _ _ _ _ G), (kc _ _ _ _ G1), KO by auto. tauto.
    - intros q Hq. eapply keeps_content; eauto; [apply G|apply W].
    - intros c Hc. destruct (in_dec Nat.eq_dec c (flat_map (fun p => k1 (Par p)) (seq 0 (length (nodes d1))))) as [Hi|Hi].
      + apply in_flat_map in Hi as (p & _ & Hp). right. exists p, (k1 (Par p)).
        split; [|split; auto; apply (kc _ _ _ _ G1); auto].
        destruct (Nat.lt_ge_cases p n) as [L|]; auto. rewrite (KO p L) in Hp.
        apply (kw_bound _ _ (inv_kw _ _ (g_inv _ _ G))) in Hp. lia.
      + left. intros A. apply (attached_iff _ _ _ (g_inv _ _ G1)) in A as (p & Hp).
        apply Hi. apply in_flat_map. exists p. split; auto. apply in_seq.
        pose proof (kw_order _ _ (inv_kw _ _ (g_inv _ _ G1)) _ _ Hp).
        pose proof (kw_bound _ _ (inv_kw _ _ (g_inv _ _ G1)) _ _ Hp). lia.
  Qed.

  (** The new nodes are numbered in document order from [n]. *)
  Lemma u_fragment_order d1 : parse_extra (Some bl) h d = Ok (true, d1) ->
    n < length (nodes d1) ->
    exists tops, sibs d1 n tops /\ preorders d1 tops (seq n (length (nodes d1) - n)).
  Proof.
    intros E L. start. pose proof (parse_extra_ok h bl d k G) as P. rewrite E in P.
    cbn in P. destruct P as (k1 & W & _).
    pose proof (pw_good _ _ _ _ _ _ W) as G1. pose proof (pw_pre _ _ _ _ _ _ W) as PR.
    destruct (frag_ok d k bl h d1 G E L) as (k2 & rest & F).
    assert (NE : exists a l, k1 (Flo n) = a :: l).
    { apply pres_hd with (n := length (nodes d1)) (k := k1). rewrite PR.
      destruct (length (nodes d1) - n) eqn:?; [lia|discriminate]. }
    destruct NE as (a & l & Ea).
    assert (a = n).
    { rewrite Ea in PR. simpl in PR. rewrite pre_eq in PR by apply G1.
      destruct (length (nodes d1) - n) eqn:?; [lia|]. simpl in PR. congruence. }
    subst a. exists (n :: l). split.
    - apply (sibs_at d1 k1 (Flo n) [] (n :: l)); [apply G1|]. auto.
    - apply (psk _ _ _ _ G1).
      + intros c Hc. eapply (k_nz (g_inv _ _ G1) (Flo n)). rewrite Ea. auto.
      + rewrite <- Ea. symmetry. exact PR.
  Qed.

  (** C34 *)
  Lemma u_failed_append d1 p : parse_extra (Some bl) h d = Ok (false, d1) ->
    append_html (Some bl) p h d = Ok (0, d1) /\ prepend_html (Some bl) p h d = Ok (0, d1) /\
    replace_with_html (Some bl) p h d = Ok (0, d1).
  Proof.
    intros E. unfold append_html, prepend_html, replace_with_html. rewrite E. auto.
  Qed.

  Section Placed.
    Context (d1 : dom) (E : parse_extra (Some bl) h d = Ok (true, d1)) (L : n < length (nodes d1)).
    Context (tops : list nat) (HT : sibs d1 n tops).
    Context (p : nat) (l : list nat) (Hp : node_id d p) (Hl : children d p l).

    Lemma placed k : Good d k -> exists k1 rest, frag d k d1 k1 rest /\ tops = n :: rest /\
      l = k1 (Par p) /\ (forall c, In c l -> c < n /\ text_of d1 c = text_of d c).
    Proof.
      intros G. destruct (frag_ok d k bl h d1 G E L) as (k1 & rest & F).
      exists k1, rest. split; auto.
      pose proof (fr_good _ _ _ _ _ F) as G1.
      split; [|].
      - eapply sibs_fun; [exact HT|].
        apply (sibs_at d1 k1 (Flo n) [] (n :: rest)); [apply G1|apply F].
      - apply (kc _ _ _ _ G) in Hl. subst l. destruct Hp.
        split; [symmetry; apply F; auto|].
        intros c Hc. pose proof (kw_bound _ _ (inv_kw _ _ (g_inv _ _ G)) _ _ Hc) as B.
        split; [apply B|]. 
        assert (S : same_content d d1 c).
        { eapply keeps_content; [apply G|apply F| |]; lia. }
        apply content_parts in S. apply S.
    Qed.

    Lemma splice_children k1 d' m : Good d' (splice k1 n p m) -> children d' p m.
    Proof. intros G'. apply (kc _ _ _ _ G'). now rewrite splice_par. Qed.
    Lemma splice_same k1 d' m : Good d1 k1 -> Good d' (splice k1 n p m) ->
      same_children_but d1 d' [p].
    Proof.
      intros G1 G'. eapply same_but; eauto. intros q Hq. apply splice_other; [|discriminate].
      intros X. apply Hq. left. congruence.
    Qed.
    Lemma gone_top k k1 rest d' m a s : frag d k d1 k1 rest ->
      Good d' (splice k1 n p m) -> In a (n :: rest) -> text_of d1 a = Some s ->
      ~ In a m -> kind d' a = Some TRemoved -> removed d' [a].
    Proof.
      intros F G' Ha Hs Hm K.
      pose proof (fr_good _ _ _ _ _ F) as G1.
      assert (n <= a) by (destruct Ha as [<-|Ha]; [lia|apply (fr_gt _ _ _ _ _ F) in Ha; lia]).
      eapply removed_intro; eauto.
      - intros x [<-|[]]. auto.
      - intros x [<-|[]]. destruct Hp. split.
        + rewrite splice_other; [|intros X; injection X; lia|discriminate].
          eapply fr_leaf; eauto.
        + intros q Hq. apply splice_in in Hq as [Hq|[Hq1 Hq2]]; auto.
          apply Hq1. eapply kw_disj; [apply G1|exact Hq2|].
          rewrite (fr_top _ _ _ _ _ F). exact Ha.
    Qed.

    Lemma tops_nodup k k1 rest : frag d k d1 k1 rest -> NoDup (n :: rest) /\
      (forall c, In c (n :: rest) -> ~ In c (k1 (Par p))).
    Proof.
      intros F. pose proof (fr_good _ _ _ _ _ F) as G1.
      pose proof (inv_kw _ _ (g_inv _ _ G1)) as W.
      rewrite <- (fr_top _ _ _ _ _ F). split; [apply W|].
      intros c Hc Hc'. pose proof (kw_disj _ _ W _ _ _ Hc Hc'). discriminate.
    Qed.

    Lemma tm_old o : (forall c, o = Some c -> text_of d1 c = text_of d c) ->
      text_merge_target d1 o = text_merge_target d o.
    Proof. intros H. destruct o as [c|]; simpl; auto. now rewrite (H c eq_refl). Qed.
    Lemma last_error_in (m : list nat) c : last_error m = Some c -> In c m.
    Proof.
      unfold last_error. intros H. apply in_rev. destruct (rev m); simpl in H; [discriminate|].
      injection H as ->. now left.
    Qed.
    Lemma hd_error_in (m : list nat) c : hd_error m = Some c -> In c m.
    Proof. destruct m; simpl; intros H; [discriminate|]. injection H as ->. now left. Qed.

    (** C28 *)
    Lemma u_append_html_plain : no_text_end d l \/ no_text_start d1 tops ->
      exists d', append_html (Some bl) p h d = Ok (n, d') /\
        children d' p (l ++ tops) /\ same_children_but d1 d' [p] /\ keeps_but d1 d' [].
    Proof.
      intros Hcase. start. destruct (placed k G) as (k1 & rest & F & -> & El & Old).
      pose proof (fr_good _ _ _ _ _ F) as G1.
      destruct (safe_nj _ _ (append_html_frag d k bl h d1 k1 rest p G E F Hp)
                  (nj_append_html _ p _ _ _ E)) as ([x d'] & Ex & P).
      unfold append_frag_post in P. rewrite <- El in P.
      rewrite tm_old in P by (intros c Hc; apply Old, last_error_in, Hc).
      assert (P' : frag_done d1 k1 n p (l ++ n :: rest) d' /\ keeps_but d1 d' [] /\ x = n).
      { destruct Hcase as [H|H].
        - rewrite (tmt_none _ _ H) in P. exact P.
        - rewrite (H rest n eq_refl) in P.
          destruct (text_merge_target d (last_error l)) as [[? ?]|]; exact P. }
      destruct P' as ((_ & G') & K & ->). exists d'. split; auto.
      split; [eapply splice_children; eauto|]. split; auto. eapply splice_same; eauto.
    Qed.
    Lemma u_append_html_merge c old s : ends_with_text d l c old -> text_of d1 n = Some s ->
      exists d', append_html (Some bl) p h d = Ok (hd c (tl tops), d') /\
        children d' p (l ++ tl tops) /\ retexted d1 d' c (old ++ [cSP] ++ s) /\
        removed d' [n] /\ same_children_but d1 d' [p] /\ keeps_but d1 d' [c; n].
    Proof.
      intros Hc Hs. start. destruct (placed k G) as (k1 & rest & F & -> & El & Old).
      pose proof (fr_good _ _ _ _ _ F) as G1.
      destruct (safe_nj _ _ (append_html_frag d k bl h d1 k1 rest p G E F Hp)
                  (nj_append_html _ p _ _ _ E)) as ([x d'] & Ex & P).
      unfold append_frag_post in P. rewrite <- El in P.
      rewrite tm_old in P by (intros c' Hc'; apply Old, last_error_in, Hc').
      rewrite (tmt_some _ _ _ _ Hc), Hs in P.
      destruct P as ((_ & G') & R & K & Q & ->). exists d'.
      destruct (tops_nodup _ _ _ F) as [ND DJ]. inversion ND; subst.
      split; [rewrite Ex; destruct rest; reflexivity|].
      split; [eapply splice_children; eauto|]. split; auto. split; [|split; auto].
      - eapply gone_top; eauto; [now left|]. simpl. intros Hi. apply in_app_or in Hi as [Hi|Hi]; auto.
        eapply DJ; eauto. now left.
      - eapply splice_same; eauto.
    Qed.

    (** C30 *)
    Lemma u_prepend_html_plain : no_text_start d l \/ no_text_end d1 tops ->
      exists d', prepend_html (Some bl) p h d = Ok (n, d') /\
        children d' p (tops ++ l) /\ same_children_but d1 d' [p] /\ keeps_but d1 d' [].
    Proof.
      intros Hcase. start. destruct (placed k G) as (k1 & rest & F & Et & El & Old).
      pose proof (fr_good _ _ _ _ _ F) as G1.
      destruct (safe_nj _ _ (prepend_html_frag d k bl h d1 k1 rest p G E F Hp)
                  (nj_prepend_html _ p _ _ _ E)) as ([x d'] & Ex & P).
      unfold prepend_frag_post in P. rewrite <- El in P.
      rewrite tm_old in P by (intros c Hc; apply Old, hd_error_in, Hc).
      assert (P' : frag_done d1 k1 n p (tops ++ l) d' /\ keeps_but d1 d' [] /\ x = n).
      { cbv zeta in P. rewrite Et. destruct Hcase as [H|H].
        - rewrite (tmh_none _ _ H) in P. exact P.
        - rewrite (H (removelast (n :: rest)) (last rest n)) in P.
          + destruct (text_merge_target d (hd_error l)) as [[? ?]|]; exact P.
          + rewrite Et. apply split_lst. }
      destruct P' as ((_ & G') & K & ->). exists d'. split; auto.
      split; [eapply splice_children; eauto|]. split; auto. eapply splice_same; eauto.
    Qed.
    Lemma u_prepend_html_merge tops' a c old s : tops = tops' ++ [a] ->
      starts_with_text d l c old -> text_of d1 a = Some s ->
      exists d', prepend_html (Some bl) p h d = Ok (hd c tops', d') /\
        children d' p (tops' ++ l) /\ retexted d1 d' c (s ++ [cSP] ++ old) /\
        removed d' [a] /\ same_children_but d1 d' [p] /\ keeps_but d1 d' [c; a].
    Proof.
      intros Ea Hc Hs. start. destruct (placed k G) as (k1 & rest & F & Et & El & Old).
      pose proof (fr_good _ _ _ _ _ F) as G1.
      destruct (safe_nj _ _ (prepend_html_frag d k bl h d1 k1 rest p G E F Hp)
                  (nj_prepend_html _ p _ _ _ E)) as ([x d'] & Ex & P).
      unfold prepend_frag_post in P. rewrite <- El in P.
      rewrite tm_old in P by (intros c' Hc'; apply Old, hd_error_in, Hc').
      rewrite (tmh_some _ _ _ _ Hc) in P.
      assert (E2 : removelast (n :: rest) = tops' /\ last rest n = a).
      { rewrite Ea in Et. pose proof (split_lst n rest) as S. rewrite <- Et in S at 1.
        apply app_inj_tail in S as [S1 S2]. auto. }
      destruct E2 as [E2 E3]. cbv zeta in P. rewrite E2, E3, Hs in P.
      destruct P as ((_ & G') & R & K & Q & ->). exists d'.
      destruct (tops_nodup _ _ _ F) as [ND DJ].
      assert (Ina : In a (n :: rest)) by (rewrite <- Et, Ea; apply in_elt).
      split; [rewrite Ex; f_equal; f_equal|].
      { rewrite <- E2. destruct rest; reflexivity. }
      split; [eapply splice_children; eauto|]. split; auto. split; [|split; auto].
      - eapply gone_top; eauto. intros Hi. apply in_app_or in Hi as [Hi|Hi].
        + rewrite <- Et, Ea in ND. apply nodup_mid in ND as [_ ND]. rewrite app_nil_r in ND. auto.
        + rewrite El in Hi. eapply DJ; eauto.
      - eapply splice_same; eauto.
    Qed.
  End Placed.

  (** C33 *)
  Section Replaced.
    Context (d1 : dom) (E : parse_extra (Some bl) h d = Ok (true, d1)) (L : n < length (nodes d1)).
    Context (tops : list nat) (HT : sibs d1 n tops).
    Context (p c : nat) (l1 l2 : list nat) (Hl : children d p (l1 ++ c :: l2)).

    Lemma rep_node_id k : Good d k -> node_id d p.
    Proof.
      intros G. apply (kc _ _ _ _ G) in Hl.
      assert (Hc : In c (k (Par p))) by (rewrite <- Hl; apply in_elt).
      pose proof (kw_order _ _ (inv_kw _ _ (g_inv _ _ G)) _ _ Hc).
      pose proof (kw_bound _ _ (inv_kw _ _ (g_inv _ _ G)) _ _ Hc). unfold node_id. lia.
    Qed.

    Lemma first_merge_ok f rest : tops = n :: rest -> first_merge d d1 l1 tops f ->
      (forall x, In x l1 -> text_of d1 x = text_of d x) -> m_first d1 n l1 = f.
    Proof.
      intros Et Hf Old. unfold m_first.
      rewrite tm_old with (d1 := d1) by (intros x Hx; apply Old, last_error_in, Hx).
      destruct f as [[t s']|]; simpl in Hf.
      - destruct Hf as (old & s & a & r & Ea & He & Hs & ->). rewrite Et in Ea. injection Ea as <- <-.
        rewrite Hs, (tmt_some _ _ _ _ He). reflexivity.
      - destruct Hf as [H|H].
        + rewrite (tmt_none _ _ H). destruct (text_of d1 n); reflexivity.
        + rewrite (H rest n Et). reflexivity.
    Qed.
    Lemma last_merge_ok f rest : tops = n :: rest -> last_merge d d1 l2 tops f ->
      (forall x, In x l2 -> text_of d1 x = text_of d x) -> m_last d1 n rest l2 = f.
    Proof.
      intros Et Hf Old. unfold m_last. pose proof (split_lst n rest) as S. rewrite <- Et in S at 1.
      rewrite tm_old with (d1 := d1) by (intros x Hx; apply Old, hd_error_in, Hx).
      destruct f as [[t s']|]; simpl in Hf.
      - destruct Hf as (old & s & a & r & Ea & He & Hs & ->). rewrite S in Ea.
        apply app_inj_tail in Ea as [_ <-].
        rewrite Hs, (tmh_some _ _ _ _ He). reflexivity.
      - destruct Hf as [H|H].
        + rewrite (tmh_none _ _ H). destruct (text_of d1 _); reflexivity.
        + rewrite (H _ _ S). reflexivity.
    Qed.

    Lemma rep_out k k1 rest d' m : Good d k -> frag d k d1 k1 rest -> k1 (Par p) = l1 ++ c :: l2 ->
      Good d' (splice k1 n p (l1 ++ m ++ l2)) -> incl m (n :: rest) -> ~ attached d' c.
    Proof.
      intros G F Ek G' Hm A. apply (attached_iff _ _ _ (g_inv _ _ G')) in A as (q & Hq).
      pose proof (fr_good _ _ _ _ _ F) as G1. pose proof (inv_kw _ _ (g_inv _ _ G1)) as W.
      pose proof (kw_nodup _ _ W (Par p)) as ND. rewrite Ek in ND. apply nodup_mid in ND as [_ ND].
      assert (Hc : In c (k1 (Par p))) by (rewrite Ek; apply in_elt).
      unfold splice, upk in Hq. destruct (key_dec (Par p) (Par q)) as [Eq|Nq].
      - rewrite !in_app_iff in Hq. rewrite in_app_iff in ND.
        destruct Hq as [Hq|[Hq|Hq]]; try tauto. apply Hm in Hq.
        rewrite <- (fr_top _ _ _ _ _ F) in Hq. pose proof (kw_disj _ _ W _ _ _ Hq Hc). discriminate.
      - destruct (key_dec (Flo n) (Par q)) as [X|]; [discriminate X|].
        apply Nq. eapply kw_disj; eauto.
    Qed.

    (** Several top-level nodes, or one that is not merged. *)
    Lemma u_replace_html f g :
      first_merge d d1 l1 tops f -> last_merge d d1 l2 tops g ->
      (length tops = 1 -> f = None /\ g = None) ->
      let A := match f with Some _ => tl tops | None => tops end in
      let B := match g with Some _ => removelast A | None => A end in
      B <> [] ->
      exists d', replace_with_html (Some bl) c h d = Ok (hd 0 B, d') /\
        children d' p (l1 ++ B ++ l2) /\ same_children_but d1 d' [p] /\
        kind d' c = Some TRemoved /\ ~ attached d' c /\
        merge_done d1 d' f (hd 0 tops) /\ merge_done d1 d' g (last tops 0) /\
        keeps_but d1 d' (c :: merge_ids f (hd 0 tops) ++ merge_ids g (last tops 0)).
    Proof.
      intros Hf Hg Hone A B HB. start. pose proof (rep_node_id k G) as Hp.
      destruct (placed d1 E L tops HT p _ Hp Hl k G) as (k1 & rest & F & Et & El & Old).
      pose proof (fr_good _ _ _ _ _ F) as G1. symmetry in El.
      assert (Ek : k (Par p) = l1 ++ c :: l2) by (apply (kc _ _ _ _ G) in Hl; auto).
      assert (Ef : m_first d1 n l1 = f).
      { eapply first_merge_ok; eauto. intros x Hx. apply Old, in_or_app. auto. }
      assert (Eg : m_last d1 n rest l2 = g).
      { eapply last_merge_ok; eauto. intros x Hx. apply Old, in_or_app. simpl. auto. }
      assert (ES : single_merge d1 n rest l1 l2 = None).
      { unfold single_merge. destruct rest as [|r rest']; auto.
        destruct (Hone ltac:(rewrite Et; reflexivity)) as [-> ->].
        unfold m_first in Ef. unfold m_last in Eg. simpl in Eg.
        destruct (text_of d1 n) as [s|]; auto. unfold replace_target.
        destruct (text_merge_target d1 (last_error l1)) as [[? ?]|]; [discriminate|].
        destruct (text_merge_target d1 (hd_error l2)) as [[? ?]|]; [discriminate|]. reflexivity. }
      assert (EA : T1 d1 n rest l1 = A) by (unfold T1, A; rewrite Ef, Et; destruct f; reflexivity).
      assert (EB : T2 d1 n rest l1 l2 = B) by (unfold T2, B; rewrite EA, Eg; reflexivity).
      assert (GD : replace_guard d1 n rest l1 l2).
      { split; [congruence|]. intros _. rewrite EB. exact HB. }
      destruct (safe_nj _ _ (replace_html_frag d k bl h d1 k1 rest p c l1 l2 G E F Ek GD)
                  (nj_replace_html _ c _ _ _ E)) as ([x d'] & Ex & P).
      unfold replace_frag_post in P. rewrite ES in P.
      destruct P as (_ & P1 & P2 & KC). exists d'.
      assert (AI : incl A (n :: rest)).
      { unfold A. rewrite Et. destruct f; simpl; intros y; simpl; auto. }
      assert (BI : incl B (n :: rest)).
      { intros y Hy. apply AI. unfold B in Hy. destruct g; auto.
        apply removelast_in in Hy. exact Hy. }
      pose proof (split_lst n rest) as SL. rewrite <- Et in SL at 1.
      assert (Hlast : last tops 0 = last rest n) by (rewrite SL; apply List.last_last).
      assert (Hhd : hd 0 tops = n) by (rewrite Et; reflexivity).
      rewrite Hlast, Hhd.
      destruct (tops_nodup d1 p k k1 rest F) as [ND DJ].
      destruct rest as [|r rest'].
      - destruct (Hone ltac:(rewrite Et; reflexivity)) as [-> ->].
        destruct (P1 eq_refl) as (G' & K & ->).
        assert (B = [n]) as -> by (unfold B, A; auto).
        split; auto. split; [eapply splice_children; eauto|]. split; [eapply splice_same; eauto|].
        split; auto. split; [|split; [exact I|split; [exact I|exact K]]].
        eapply rep_out with (m := [n]); eauto.
      - destruct (P2 ltac:(discriminate)) as (G' & M1 & M2 & K & ->).
        rewrite EB in *. rewrite Ef in M1, K. rewrite Eg in M2, K.
        split; auto. split; [eapply splice_children; eauto|]. split; [eapply splice_same; eauto|].
        split; auto. split; [eapply rep_out; eauto|].
        assert (NL : forall x, In x (n :: r :: rest') -> ~ In x (l1 ++ l2)).
        { intros x Hx Hi. apply (DJ x Hx). rewrite El. apply in_app_or in Hi. apply in_or_app.
          simpl. tauto. }
        assert (GO : forall x s, In x (n :: r :: rest') -> ~ In x B -> text_of d1 x = Some s ->
                  kind d' x = Some TRemoved -> removed d' [x]).
        { intros x s Hx HxB Hs Kx. eapply gone_top; eauto.
          rewrite !in_app_iff. specialize (NL x Hx). rewrite in_app_iff in NL. tauto. }
        split; [|split].
        + destruct f as [[t s']|]; [|exact I]. destruct M1 as [M1 M1']. split; auto.
          destruct Hf as (old & s & a & r2 & Ea & _ & Hs & _). rewrite Et in Ea. injection Ea as <- <-.
          eapply GO; eauto; [now left|]. intros Hi. apply (NoDup_cons_iff) in ND as [ND _]. apply ND.
          unfold B, A in Hi. rewrite Et in Hi. destruct g; auto.
          apply removelast_in in Hi. exact Hi.
        + destruct g as [[t s']|]; [|exact I]. destruct M2 as [M2 M2']. split; auto.
          destruct Hg as (old & s & a & r2 & Ea & _ & Hs & _).
          rewrite SL in Ea. apply app_inj_tail in Ea as [_ <-].
          eapply GO; eauto.
          * rewrite <- Et, SL. apply in_elt.
          * intros Hi. rewrite <- Et, SL in ND. apply nodup_mid in ND as [_ ND].
            rewrite app_nil_r in ND. apply ND. unfold B, A in Hi. rewrite Et in Hi.
            destruct f as [[? ?]|]; [|exact Hi].
            change (removelast (n :: r :: rest')) with (n :: removelast (r :: rest')).
            right. exact Hi.
        + exact K.
    Qed.

    (** One text node, merged. *)
    Lemma u_replace_html_text s t s' D : tops = [n] -> text_of d1 n = Some s ->
      merges_into d l1 l2 s t s' -> l1 <> [] -> preorder d c D ->
      exists x d', replace_with_html (Some bl) c h d = Ok (x, d') /\
        children d' p (l1 ++ l2) /\ retexted d1 d' t s' /\ removed d' (n :: D) /\
        same_children_but d1 d' (p :: D) /\ keeps_but d1 d' (t :: n :: D).
    Proof.
      intros Ht Hs Hm Hne HD. start. pose proof (rep_node_id k G) as Hp.
      destruct (placed d1 E L tops HT p _ Hp Hl k G) as (k1 & rest & F & Et & El & Old).
      pose proof (fr_good _ _ _ _ _ F) as G1. symmetry in El.
      assert (Ek : k (Par p) = l1 ++ c :: l2) by (apply (kc _ _ _ _ G) in Hl; auto).
      pose proof (inv_kw _ _ (g_inv _ _ G1)) as W.
      assert (rest = []) as -> by congruence.
      assert (ES : single_merge d1 n [] l1 l2 = Some (t, s')).
      { unfold single_merge. rewrite Hs. apply merges_target.
        destruct Hm as [(old & ((l0 & Hl0) & H) & ->)|(H & old & ((l0 & Hl0) & H2) & ->)].
        - left. exists old. split; auto. split; [eauto|]. rewrite <- H. apply Old.
          rewrite Hl0, !in_app_iff. simpl. auto.
        - right. split.
          + intros l3 x Hx. rewrite <- (H l3 x Hx). apply Old. rewrite Hx, !in_app_iff. simpl. auto.
          + exists old. split; auto. split; [eauto|]. rewrite <- H2. apply Old.
            rewrite Hl0, !in_app_iff. simpl. auto. }
      assert (GD : replace_guard d1 n [] l1 l2) by (split; [auto|congruence]).
      destruct (safe_nj _ _ (replace_html_frag d k bl h d1 k1 [] p c l1 l2 G E F Ek GD)
                  (nj_replace_html _ c _ _ _ E)) as ([x d'] & Ex & P).
      unfold replace_frag_post in P. rewrite ES in P. destruct P as (_ & G' & R & K & KD & Q).
      assert (Hc : In c (k (Par p))) by (rewrite Ek; apply in_elt).
      assert (Hcn : c <> 0) by (eapply k_nz; [apply G|eauto]).
      assert (HD1 : preorder d1 c (pre (length (nodes d1)) k1 c)) by (apply (pk _ _ _ _ G1); auto).
      assert (D = pre (length (nodes d1)) k1 c) as ->.
      { eapply preorder_fun; [|exact HD1]. clear HD1.
        assert (HO : forall q m, q < n -> (children d1 q m <-> children d q m))
          by (apply (u_fragment true d1 E)).
        assert (X : (forall a la, preorder d a la -> a < n -> preorder d1 a la) /\
                    (forall ls la, preorders d ls la -> (forall x, In x ls -> x < n) -> preorders d1 ls la)).
        { apply preorder_both_ind.
          - intros a cs la Hcs _ IH Ha. econstructor; [apply HO; eauto|].
            apply IH. intros y Hy. apply (kc _ _ _ _ G) in Hcs. subst cs.
            apply (kw_bound _ _ (inv_kw _ _ (g_inv _ _ G))) in Hy. lia.
          - intros _. constructor.
          - intros a cs la ls _ IH1 _ IH2 Ha. constructor; [apply IH1, Ha; now left|].
            apply IH2. intros y Hy. apply Ha. now right. }
        apply X; auto. apply (kw_bound _ _ (inv_kw _ _ (g_inv _ _ G))) in Hc. lia. }
      set (D := pre (length (nodes d1)) k1 c) in *.
      assert (KU : forall q, upk k1 (Flo n) [] (Par q) = k1 (Par q))
        by (intros; apply upk_neq; discriminate).
      assert (CU : forall q, cut D (upk k1 (Flo n) []) (Par q) = cut D k1 (Par q))
        by (intros; unfold cut; now rewrite KU).
      exists x, d'. split; auto.
      split; [apply (kc _ _ _ _ G'); rewrite CU; symmetry; eapply cut_parent; eauto|].
      split; auto. split; [|split; auto].
      - eapply removed_intro; eauto.
        + intros y [<-|Hy]; auto.
        + intros y [<-|Hy].
          * split.
            -- rewrite CU. unfold cut. rewrite (fr_leaf _ _ _ _ _ F n s); auto. now left.
            -- intros q Hq. apply cut_in in Hq as [Hq _]. unfold upk in Hq.
               destruct (key_dec (Flo n) q) as [|Nq]; [destruct Hq|]. apply Nq.
               eapply kw_disj; [exact W| |exact Hq]. rewrite (fr_top _ _ _ _ _ F). now left.
          * split; [rewrite CU; eapply cut_inside; eauto|]. intros q Hq. apply cut_in in Hq. tauto.
      - eapply same_but; eauto. intros q Hq. simpl in Hq. rewrite CU. eapply cut_far; eauto.
    Qed.
  End Replaced.
End Html.

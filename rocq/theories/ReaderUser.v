(** * User-level consequences of the reference reader. *)
From Coq Require Import List NArith Arith Bool Lia.
From Verif Require Import Base TrieModel DomModel ParserModel EditModel ReadModel DomSpec ApiSpec GrammarSpec ReaderSpec
  Lemmas TrieProofs Tables Inv Surgery Attach Link RegProofs ParseSafe ParseTree ParseLoop
  CompareSpec EditHtml NoJump Walk EditProofs EditOps ApiProofs Grow EditUser EditUserHtml GrammarScan GrammarText GrammarTag GrammarLoop GrammarUser
  ReaderScan ReaderTag ReaderText ReaderLoop.
Import ListNotations.
Local Open Scope nat_scope.

Lemma read_document t :
  match create_dom t with
  | Ok (Some d) => exists ts us, document_of t = Trees ts us /\ shows_kids d 1 ts /\ tags_as d us
  | Ok None => document_of t = TooDeep
  | Undef NegLen => document_of t = BadQuote
  | Undef _ => False
  | NoFuel => False
  | Longjmp _ => True
  end.
Proof.
  assert (M : pmode 2 (Par 1) [(1, [])]) by (left; auto).
  pose proof (ref_parse 2 empty_dom no_kids (Par 1) [(1, [])] M t None [] 255 eq_refl eq_refl
     empty_dom no_kids eq_refl 1 ps_root) as H.
  unfold create_dom, parse_root. fold (document_of t) in H.
  destruct (parse None t 1 [(1, [])] empty_dom) as [[ok d]|u|j|]; cbn [bind]; simpl in H.
  - destruct H as [(-> & ts & us & k & zs & E & W & X & F)|(-> & E)]; auto.
    exists ts, us. split; auto. pose proof (g_inv _ _ (pw_good _ _ _ _ _ _ W)) as I.
    split; [exists zs; split|].
    + apply (children_k d k 1); auto. rewrite (e_new _ _ _ _ _ _ _ X). reflexivity.
    + eapply kforest_shows; eauto.
    + eapply (tags_from_notes d k _ ([], false)); [apply (pw_good _ _ _ _ _ _ W)|].
      rewrite (e_tags _ _ _ _ _ _ _ X). reflexivity.
  - destruct u; auto.
  - exact I.
  - exact H.
Qed.

Lemma read_document_total t : (N.of_nat (length t) <= 65533)%N ->
  match document_of t with
  | Trees ts us => exists d, create_dom t = Ok (Some d) /\ shows_kids d 1 ts /\ tags_as d us
  | TooDeep => create_dom t = Ok None
  | BadQuote => create_dom t = Undef NegLen
  end.
Proof.
  intros Hl. pose proof (read_document t) as H. pose proof (nj_create_dom _ Hl) as J.
  destruct (create_dom t) as [[d|]|u|j|]; simpl in J; try tauto.
  - destruct H as (ts & us & -> & H). eauto.
  - now rewrite H.
  - destruct u; try contradiction. now rewrite H.
Qed.

(** ** Fragments *)
Lemma read_frag d bl h k : Good d k ->
  safe (fragment_of bl h = BadQuote) (fun '(ok, d1) =>
     (ok = true /\ exists ts us k1 xs, fragment_of bl h = Trees ts us /\
        ParseLoop.PW (length (nodes d)) d k (Flo (length (nodes d))) d1 k1 /\
        tag_pairs d1 = notes (tag_pairs d) us /\
        k1 (Flo (length (nodes d))) = xs /\
        kforest (length (nodes d)) (length (nodes d1)) d1 k1 xs ts) \/
     (ok = false /\ fragment_of bl h = TooDeep))
   (parse_extra (Some bl) h d).
Proof.
  intros G. unfold parse_extra. set (n := length (nodes d)).
  pose proof (g_inv _ _ G) as I.
  assert (M : pmode n (Flo n) []).
  { right. pose proof (inv_len _ _ I). auto. }
  eapply safe_imp.
  - apply (ref_parse n d k (Flo n) [] M h (Some bl) bl 256 eq_refl eq_refl d k eq_refl 0 (ps_frag d k G)).
  - intros [ok d1]. fold (fragment_of bl h).
    intros [(-> & ts & us & k1 & zs & E & W & X & F)|(-> & E)]; [left|right]; auto.
    split; auto. exists ts, us, k1, zs. split; auto. split; auto.
    split; [apply (e_tags _ _ _ _ _ _ _ X)|]. split; auto.
    rewrite (e_new _ _ _ _ _ _ _ X). unfold n. rewrite (flo_empty d k) by auto. reflexivity.
Qed.

Lemma read_fragment d : reachable d -> forall bl h,
  match parse_extra (Some bl) h d with
  | Ok (true, d1) => exists ts us, fragment_of bl h = Trees ts us /\ frag_shows d d1 ts
  | Ok (false, _) => fragment_of bl h = TooDeep
  | Undef NegLen => fragment_of bl h = BadQuote
  | Undef _ => False
  | NoFuel => False
  | Longjmp _ => ~ room_for d (length h)
  end.
Proof.
  intros HR bl h. destruct (reachable_good d HR) as (k & G). pose proof (read_frag d bl h k G) as S.
  assert (J : room_for d (length h) -> forall j, parse_extra (Some bl) h d <> Longjmp j).
  { intros Hr j E. pose proof (nj_parse (Some bl) h 0 [] d (room_good _ _ _ G Hr)) as J.
    fold (parse_extra (Some bl) h d) in J. rewrite E in J. exact J. }
  destruct (parse_extra (Some bl) h d) as [[ok d1]|u|j|]; simpl in S.
  - destruct S as [(-> & ts & us & k1 & xs & E & W & _ & Ek & F)|(-> & E)]; auto.
    exists ts, us. split; auto.
    pose proof (pw_good _ _ _ _ _ _ W) as G1. pose proof (g_inv _ _ G1) as I.
    pose proof (pw_pre _ _ _ _ _ _ W) as PR. rewrite Ek in PR.
    destruct ts as [|t0 ts0]; simpl.
    + assert (Hx : xs = []) by (inversion F; auto). rewrite Hx in PR. pose proof (pw_n _ _ _ _ _ _ W).
      destruct (length (nodes d1) - length (nodes d)) eqn:E1; [lia|discriminate].
    + assert (Hne : xs <> []) by (intros ->; inversion F).
      assert (Hlt : length (nodes d) < length (nodes d1)).
      { destruct xs as [|x xs]; [congruence|]. inversion F; subst. inversion H2; subst; lia. }
      split; auto. exists xs. split; [|eapply kforest_shows; eauto].
      destruct xs as [|a xs]; [congruence|].
      assert (a = length (nodes d)).
      { simpl in PR. rewrite pre_eq in PR by apply G1.
        destruct (length (nodes d1) - length (nodes d)) eqn:?; [lia|]. simpl in PR. congruence. }
      subst a. apply (sibs_at d1 k1 (Flo (length (nodes d))) [] (length (nodes d) :: xs)); auto.
  - destruct u; auto.
  - intros Hr. eapply J; eauto.
  - exact S.
Qed.

Lemma read_given d bl h ts us : reachable d -> fragment_of bl h = Trees ts us ->
  forall k, Good d k -> safe False (fun '(ok, d1) => ok = true /\
     exists k1 xs, ParseLoop.PW (length (nodes d)) d k (Flo (length (nodes d))) d1 k1 /\
        k1 (Flo (length (nodes d))) = xs /\
        kforest (length (nodes d)) (length (nodes d1)) d1 k1 xs ts) (parse_extra (Some bl) h d).
Proof.
  intros HR E k G. pose proof (read_frag d bl h k G) as S. rewrite E in S.
  eapply safe_neg; [eapply safe_imp; [exact S|]|discriminate].
  intros [ok d1] [(-> & ts' & us' & k1 & xs & E' & W & _ & Ek & F)|(_ & E')]; [|discriminate].
  injection E' as <- <-. split; eauto 6.
Qed.

Section Insert.
  Context (d : dom) (HR : reachable d) (bl h : bytes) (ts : list tree) (us : list (bytes * bool)).
  Context (HF : fragment_of bl h = Trees ts us) (Hroom : room_for d (length h)) (Hne : ts <> []).
  Local Notation n := (length (nodes d)).

  Lemma r_append_plain p ks : node_id d p -> children d p ks ->
    no_text_end d ks \/ (forall s r, ts <> Txt s :: r) ->
    exists d' tops, append_html (Some bl) p h d = Ok (n, d') /\
        children d' p (ks ++ tops) /\ Forall2 (shows d') tops ts /\ old_kept d d' p [].
  Proof. intros. eapply a_append_plain; eauto. eapply read_given; eauto. Qed.
  Lemma r_append_merge p ks : node_id d p -> children d p ks ->
    forall c old s ts', ends_with_text d ks c old -> ts = Txt s :: ts' ->
      exists d' tops, append_html (Some bl) p h d = Ok (hd c tops, d') /\
        children d' p (ks ++ tops) /\ Forall2 (shows d') tops ts' /\
        retexted d d' c (old ++ [cSP] ++ s) /\ old_kept d d' p [c].
  Proof. intros. eapply a_append_merge; eauto. eapply read_given; eauto. Qed.
  Lemma r_prepend_plain p ks : node_id d p -> children d p ks ->
    no_text_start d ks \/ (forall s r, ts <> r ++ [Txt s]) ->
      exists d' tops, prepend_html (Some bl) p h d = Ok (n, d') /\
        children d' p (tops ++ ks) /\ Forall2 (shows d') tops ts /\ old_kept d d' p [].
  Proof. intros. eapply a_prepend_plain; eauto. eapply read_given; eauto. Qed.
  Lemma r_prepend_merge p ks : node_id d p -> children d p ks ->
    forall c old s ts', starts_with_text d ks c old -> ts = ts' ++ [Txt s] ->
      exists d' tops, prepend_html (Some bl) p h d = Ok (hd c tops, d') /\
        children d' p (tops ++ ks) /\ Forall2 (shows d') tops ts' /\
        retexted d d' c (s ++ [cSP] ++ old) /\ old_kept d d' p [c].
  Proof. intros. eapply a_prepend_merge; eauto. eapply read_given; eauto. Qed.
  Lemma r_replace p c l1 l2 f g : children d p (l1 ++ c :: l2) ->
    first_goes d ts l1 f -> last_goes d ts l2 g -> (length ts = 1 -> f = None /\ g = None) ->
    cut_last g (cut_first f ts) <> [] ->
    exists d' tops, replace_with_html (Some bl) c h d = Ok (hd 0 tops, d') /\
      children d' p (l1 ++ tops ++ l2) /\
      Forall2 (shows d') tops (cut_last g (cut_first f ts)) /\
      got d d' f /\ got d d' g /\ kind d' c = Some TRemoved /\ ~ attached d' c /\
      old_kept d d' p (c :: got_ids f ++ got_ids g).
  Proof. intros. eapply a_replace; eauto. eapply read_given; eauto. Qed.
End Insert.

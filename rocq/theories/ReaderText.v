(** * Text agrees with the reference reader. *)
From Coq Require Import List NArith Arith Bool Lia.
From Verif Require Import Base TrieModel DomModel ParserModel DomSpec GrammarSpec ReaderSpec
  Lemmas GrammarScan GrammarText ReaderScan.
Import ListNotations.
Local Open Scope nat_scope.

(** ** The words of a text, without fuel *)
Lemma after_dashes_len r : length (after_dashes r) <= length r.
Proof.
  induction r as [|c r IH]; [simpl; lia|]. cbn [after_dashes].
  destruct (starts [cDASH; cDASH; cGT] (c :: r)).
  - rewrite skipn_length. lia.
  - cbn [length]. lia.
Qed.
Lemma after_comment_len c r : length (after_comment (c :: r)) <= length r.
Proof.
  unfold after_comment. pose proof (after_dashes_len (skipn 2 (c :: r))) as L.
  rewrite skipn_length in L. cbn [length] in L. lia.
Qed.
Lemma dropb_len r : length (dropb r) <= length r.
Proof. destruct (dropb_split r) as (ws & E & _). rewrite E at 2. rewrite app_length. lia. Qed.

Lemma text_or c : is_blank c = false -> c <> cLT -> text_char c = true.
Proof. intros H1 H2. unfold text_char. rewrite H1. destruct (N.eqb_spec c cLT); [congruence|reflexivity]. Qed.

Lemma words_fuel : forall f g r, length r < f -> length r < g -> words_at f r = words_at g r.
Proof.
  induction f as [|f IH]; intros g r Hf Hg; [lia|]. destruct g as [|g]; [lia|].
  cbn [words_at]. rewrite skip_blanks_dropb. pose proof (dropb_len r) as L.
  pose proof (dropb_head r) as Hh.
  destruct (dropb r) as [|c r1]; auto. cbn [length] in L.
  destruct (at_comment (c :: r1)) eqn:Ec.
  { pose proof (after_comment_len c r1). apply IH; lia. }
  destruct (N.eqb_spec c cLT) as [El|El]; auto.
  pose proof (text_or c Hh El) as Et.
  assert (E : snd (span text_char (c :: r1)) = snd (span text_char r1)) by (cbn [span]; rewrite Et; reflexivity).
  pose proof (span_len text_char r1). rewrite E, (IH g (snd (span text_char r1))) by lia. reflexivity.
Qed.

Lemma words_step f r : words_at (S f) r =
      match skip_blanks r with
      | [] => ([], [])
      | c :: r1 =>
          if at_comment (c :: r1) then words_at f (after_comment (c :: r1))
          else if (c =? cLT)%N then ([], c :: r1)
          else
            (fst (span text_char (c :: r1)) :: fst (words_at f (snd (span text_char (c :: r1)))),
             snd (words_at f (snd (span text_char (c :: r1)))))
      end.
Proof. reflexivity. Qed.
Definition words (r : bytes) : list bytes * bytes := words_at (S (length r)) r.

Lemma words_nil : words [] = ([], []).
Proof. reflexivity. Qed.
Lemma words_dropb r : words (dropb r) = words r.
Proof.
  unfold words. rewrite (words_fuel _ (S (length r)) (dropb r)) by (pose proof (dropb_len r); lia).
  cbn [words_at]. rewrite !skip_blanks_dropb, dropb_idem. reflexivity.
Qed.
Lemma words_blank c r : is_blank c = true -> words (c :: r) = words r.
Proof.
  intros H. rewrite <- (words_dropb (c :: r)), <- (words_dropb r). cbn [dropb]. now rewrite H.
Qed.
Lemma words_comment c r : at_comment (c :: r) = true -> words (c :: r) = words (after_comment (c :: r)).
Proof.
  intros H. unfold words at 1. pose proof (at_comment_lt _ _ H) as ->. rewrite words_step. cbn [skip_blanks length].
  change (is_blank cLT) with false. cbn iota. rewrite H. apply words_fuel; [|lia].
  pose proof (after_comment_len cLT r). lia.
Qed.
Lemma words_lt r : at_comment (cLT :: r) = false -> words (cLT :: r) = ([], cLT :: r).
Proof.
  intros H. unfold words. rewrite words_step. cbn [skip_blanks length].
  change (is_blank cLT) with false. cbn iota. rewrite H. reflexivity.
Qed.
Lemma words_word c r : text_char c = true ->
  words (c :: r) = (fst (span text_char (c :: r)) :: fst (words (snd (span text_char (c :: r)))),
                    snd (words (snd (span text_char (c :: r))))).
Proof.
  intros H. destruct (text_char_spec c H) as [Hb Hl]. unfold words at 1. rewrite words_step. cbn [skip_blanks length].
  rewrite Hb. assert (Ec : at_comment (c :: r) = false).
  { destruct (at_comment (c :: r)) eqn:E; auto. apply at_comment_lt in E. congruence. }
  rewrite Ec. destruct (N.eqb_spec c cLT); [congruence|].
  assert (E : snd (span text_char (c :: r)) = snd (span text_char r)) by (cbn [span]; rewrite H; reflexivity).
  unfold words. rewrite E.
  rewrite (words_fuel (length (c :: r)) (S (length (snd (span text_char r))))); [reflexivity| |lia].
  pose proof (span_len text_char r). simpl. lia.
Qed.

Lemma join_conc w ws : join (w :: ws) = w ++ conc ws.
Proof.
  revert w. induction ws as [|x ws IH]; intros w; [simpl; now rewrite app_nil_r|].
  change (join (w :: x :: ws)) with (w ++ [cSP] ++ join (x :: ws)). rewrite IH. reflexivity.
Qed.

Section Text.
  Context (t : bytes).
  Local Notation stopf := (fun k c => let* b := text_continue t k c in Ok (negb b)).

  Lemma suf_eq i r r' : suf t i r -> suf t i r' -> r = r'.
  Proof. intros H H'. rewrite <- (suf_skipn t i r H). apply (suf_skipn t i r' H'). Qed.
  Lemma att_eq i r r' : att t i r -> att t i r' -> r = r'.
  Proof.
    intros [H|[H1 ->]] [H'|[H2 ->]]; auto.
    - eapply suf_eq; eauto.
    - apply suf_len in H. lia.
    - apply suf_len in H'. lia.
  Qed.

  Definition no_word (r : bytes) : Prop := match r with [] => True | c :: _ => text_char c = false end.

  Lemma not_text_stops k c : text_char c = false -> c <> cSP ->
    stopf k c = Ok true.
  Proof.
    intros H Hs. unfold text_char in H. destruct (is_blank c) eqn:Eb.
    - destruct (blank_spec c Eb) as [Hf|]; [|congruence]. now apply stop_fmt.
    - simpl in H. destruct (N.eqb_spec c cLT) as [->|]; [|discriminate]. apply stop_lt.
  Qed.

  (** Scanning from the end of a word (or from behind a '<'). *)
  Lemma chunk_from n : forall r p c0, length r <= n -> suf t (S p) r -> no_word r ->
    nth_error t p = Some c0 -> c0 <> cSP ->
    exists ws (sp : bool) r',
      r = (conc ws ++ if sp then [cSP] else []) ++ r' /\
      words r = (ws ++ fst (words r'), snd (words r')) /\
      (forall f, scan_until (length (conc ws ++ if sp then [cSP] else []) + f) t stopf (S p)
         = Ok (S p + length (conc ws ++ if sp then [cSP] else []))) /\
      (sp = false -> exists c1, nth_error t (p + length (conc ws)) = Some c1 /\ c1 <> cSP).
  Proof.
    induction n as [|n IH]; intros r p c0 Hn H Hw Hc Hne.
    { destruct r; [|simpl in Hn; lia]. exists [], false, []. simpl.
      repeat split; auto.
      - intros f. rewrite Nat.add_0_r. now apply scan_end.
      - intros _. exists c0. rewrite Nat.add_0_r. auto. }
    destruct r as [|c r].
    { apply (IH [] p c0); auto. simpl; lia. }
    destruct (N.eqb_spec c cSP) as [->|Hs].
    2:{ exists [], false, (c :: r). cbn [conc flat_map app]. split; [reflexivity|].
        split; [now rewrite <- surjective_pairing|]. split.
        - intros f. cbn [length]. rewrite Nat.add_0_r. eapply scan_stop; [exact H|].
          apply not_text_stops; auto.
        - intros _. exists c0. cbn [length]. rewrite Nat.add_0_r. auto. }
    pose proof (suf_cons _ _ _ _ H) as H1.
    assert (Pass : forall f, scan_until (S f) t stopf (S p) = scan_until f t stopf (S (S p))).
    { intros f. cbn [scan_until]. destruct (suf_get _ _ _ _ H) as (-> & _ & _ & -> & _). cbn [bind].
      rewrite (stop_sp t p c0 Hc). cbn [bind]. destruct (N.eqb_spec c0 cSP); [congruence|].
      reflexivity. }
    destruct (match r with c1 :: _ => text_char c1 | [] => false end) eqn:Et.
    - destruct r as [|c1 r]; [discriminate|].
      pose proof (span_app text_char (c1 :: r)) as Sa. pose proof (span_all text_char (c1 :: r)) as Sl.
      pose proof (span_stop text_char (c1 :: r)) as St. pose proof (span_len text_char (c1 :: r)) as Ll.
      rewrite (words_blank cSP) by reflexivity. rewrite (words_word c1 r Et).
      assert (Hne' : fst (span text_char (c1 :: r)) <> []) by (cbn [span]; rewrite Et; discriminate).
      set (w := fst (span text_char (c1 :: r))) in *. set (r2 := snd (span text_char (c1 :: r))) in *.
      destruct (@exists_last _ w Hne') as (w0 & cl & Ew).
      assert (Lw : length w = S (length w0)) by (rewrite Ew, app_length; simpl; lia).
      assert (H2 : suf t (S (S p)) (w ++ r2)) by now rewrite <- Sa.
      assert (Hcl : nth_error t (S p + length w) = Some cl /\ cl <> cSP).
      { split.
        - rewrite Ew, <- app_assoc in H2. cbn [app] in H2. rewrite Lw.
          replace (S p + S (length w0)) with (S (S p) + length w0) by lia. eapply suf_nth; eauto.
        - assert (T : text_char cl = true) by (apply Sl; rewrite Ew; apply in_or_app; simpl; auto).
          apply text_char_spec in T as [T _]. intros ->. discriminate. }
      destruct Hcl as [Hcl1 Hcl2].
      destruct (IH r2 (S p + length w) cl) as (ws & sp & r' & I1 & I2 & I3 & I4); auto.
      { cbn [length] in *. lia. }
      { replace (S (S p + length w)) with (S (S p) + length w) by lia. now apply suf_app. }
      exists (w :: ws), sp, r'.
      split. { rewrite Sa at 1. rewrite I1. cbn [conc flat_map]. fold (conc ws). cbn [app]. rewrite <- !app_assoc. reflexivity. }
      split. { rewrite I2. reflexivity. }
      split.
      + intros f. cbn [conc flat_map]. fold (conc ws). cbn [app length Nat.add].
        rewrite <- app_assoc, app_length, Pass.
        rewrite <- Nat.add_assoc. rewrite (scan_pass_word t w (S (S p)) r2 _ H2 Sl).
        replace (S (S p) + length w) with (S (S p + length w)) by lia.
        rewrite I3. f_equal. lia.
      + intros E. destruct (I4 E) as (c2 & E1 & E2). exists c2. split; auto.
        rewrite <- E1. f_equal. cbn [conc flat_map length app]. fold (conc ws). rewrite app_length. lia.
    - exists [], true, r. cbn [conc flat_map app]. split; [reflexivity|].
      split; [rewrite (words_blank cSP) by reflexivity; apply surjective_pairing|].
      split; [|discriminate].
      intros f. cbn [length Nat.add]. rewrite Pass.
      replace (S (p + 1)) with (S (S p)) by lia.
      destruct r as [|c1 r]; [now apply scan_end|]. eapply scan_stop; [exact H1|].
      destruct (N.eqb_spec c1 cSP) as [->|Hs]; [|now apply not_text_stops].
      rewrite (stop_sp t (S p) cSP); [reflexivity|]. now apply (suf_get _ _ _ _ H).
  Qed.

  (** A chunk that begins with a word. *)
  Lemma ref_chunk i c r : suf t i (c :: r) -> text_char c = true ->
    exists w ws j r', text_chunk t i = Ok (w ++ conc ws, j) /\ suf t j r' /\ i < j /\
      words (c :: r) = (w :: ws ++ fst (words r'), snd (words r')).
  Proof.
    intros H Hc. rewrite (words_word c r Hc).
    pose proof (span_app text_char (c :: r)) as Sa. pose proof (span_all text_char (c :: r)) as Sl.
    pose proof (span_stop text_char (c :: r)) as St.
    assert (Hne : fst (span text_char (c :: r)) <> []) by (cbn [span]; rewrite Hc; discriminate).
    set (w := fst (span text_char (c :: r))) in *. set (r2 := snd (span text_char (c :: r))) in *.
    rewrite Sa in H.
    destruct (@exists_last _ w Hne) as (w0 & cl & Ew).
    assert (Lw : length w = S (length w0)) by (rewrite Ew, app_length; simpl; lia).
    assert (Hcl : nth_error t (i + length w0) = Some cl /\ cl <> cSP).
    { split.
      - rewrite Ew, <- app_assoc in H. eapply suf_nth; eauto.
      - assert (T : text_char cl = true) by (apply Sl; rewrite Ew; apply in_or_app; simpl; auto).
        apply text_char_spec in T as [T _]. intros ->. discriminate. }
    destruct Hcl as [Hcl1 Hcl2].
    destruct (chunk_from (length r2) r2 (i + length w0) cl) as (ws & sp & r' & I1 & I2 & I3 & I4); auto.
    { replace (S (i + length w0)) with (i + length w) by lia. now apply suf_app. }
    set (x := if sp then [cSP] else []) in *.
    assert (H2 : suf t i ((w ++ conc ws ++ x) ++ r')).
    { rewrite I1 in H. now rewrite <- !app_assoc in *. }
    pose proof (suf_len _ _ _ H2) as L. rewrite !app_length in L.
    exists w, ws, (i + length (w ++ conc ws ++ x)), r'.
    split; [|split; [now apply suf_app|split; [rewrite app_length; lia|rewrite I2; reflexivity]]].
    unfold text_chunk.
    assert (Hs : scan_until (length t) t stopf i = Ok (i + length (w ++ conc ws ++ x))).
    { replace (length t) with (length w + (length (conc ws ++ x) + (length t - length w - length (conc ws ++ x)))).
      2:{ rewrite !app_length. lia. }
      rewrite (scan_pass_word t w i r2) by auto.
      replace (i + length w) with (S (i + length w0)) by lia. rewrite I3. f_equal.
      rewrite !app_length. lia. }
    rewrite Hs. cbn [bind]. clear Hs.
    destruct (Nat.ltb_spec 0 (i + length (w ++ conc ws ++ x))) as [_|]; [|rewrite app_length in *; lia].
    destruct sp; subst x.
    - assert (G : get_char t (i + length (w ++ conc ws ++ [cSP]) - 1) = Ok cSP).
      { rewrite app_assoc. apply (suf_last t i (w ++ conc ws) cSP r'). now rewrite <- (app_assoc w). }
      rewrite G. cbn [bind]. rewrite N.eqb_refl.
      assert (E : i + length (w ++ conc ws ++ [cSP]) - i = S (length (w ++ conc ws))).
      { rewrite !app_length. simpl. lia. }
      rewrite E. cbn [bind].
      rewrite (suf_slice t i (w ++ conc ws) ([cSP] ++ r')); [reflexivity|].
      now rewrite <- !app_assoc in *.
    - rewrite app_nil_r in *. destruct (I4 eq_refl) as (c1 & E1 & E2).
      assert (G : get_char t (i + length (w ++ conc ws) - 1) = Ok c1).
      { unfold get_char.
        replace (i + length (w ++ conc ws) - 1) with (i + length w0 + length (conc ws)).
        - now rewrite E1.
        - rewrite app_length. lia. }
      rewrite G. cbn [bind]. destruct (N.eqb_spec c1 cSP); [congruence|]. cbn [bind].
      replace (i + length (w ++ conc ws) - i) with (length (w ++ conc ws)) by lia.
      rewrite (suf_slice t i (w ++ conc ws) r'); [reflexivity|auto].
  Qed.

  (** A chunk that begins with a blank, right behind a '<'. *)
  Lemma ref_chunk_lt p c r : suf t p (cLT :: c :: r) -> is_blank c = true ->
    exists ws j r', text_chunk t (S p) = Ok (conc ws, j) /\ suf t j r' /\ S p <= j /\
      words (c :: r) = (ws ++ fst (words r'), snd (words r')) /\ (j = S p -> r' = c :: r).
  Proof.
    intros H Hc. destruct (suf_get _ _ _ _ H) as (_ & _ & _ & _ & Np). pose proof (suf_cons _ _ _ _ H) as H1.
    destruct (chunk_from (length (c :: r)) (c :: r) p cLT) as (ws & sp & r' & I1 & I2 & I3 & I4); auto.
    { simpl. unfold text_char. rewrite Hc. reflexivity. }
    { discriminate. }
    set (x := if sp then [cSP] else []) in *.
    assert (H2 : suf t (S p) ((conc ws ++ x) ++ r')) by now rewrite <- I1.
    pose proof (suf_len _ _ _ H2) as L. rewrite !app_length in L.
    exists ws, (S p + length (conc ws ++ x)), r'.
    split; [|split; [now apply suf_app|split; [lia|split; [exact I2|]]]].
    2:{ intros E. assert (E' : length (conc ws ++ x) = 0) by lia. apply length_zero_iff_nil in E'.
        rewrite E' in I1. symmetry. exact I1. }
    unfold text_chunk.
    assert (Hs : scan_until (length t) t stopf (S p) = Ok (S p + length (conc ws ++ x))).
    { replace (length t) with (length (conc ws ++ x) + (length t - length (conc ws ++ x))).
      2:{ rewrite !app_length. lia. }
      apply I3. }
    rewrite Hs. cbn [bind]. clear Hs.
    change (0 <? S p + length (conc ws ++ x)) with true. cbn iota.
    destruct sp; subst x.
    - assert (G : get_char t (S p + length (conc ws ++ [cSP]) - 1) = Ok cSP).
      { apply (suf_last t (S p) (conc ws) cSP r'). auto. }
      rewrite G. cbn [bind]. rewrite N.eqb_refl.
      assert (E : S p + length (conc ws ++ [cSP]) - S p = S (length (conc ws))).
      { rewrite !app_length. simpl. lia. }
      rewrite E. cbn [bind].
      rewrite (suf_slice t (S p) (conc ws) ([cSP] ++ r')); [reflexivity|].
      now rewrite <- !app_assoc in *.
    - rewrite app_nil_r in *. destruct (I4 eq_refl) as (c1 & E1 & E2).
      assert (G : get_char t (S p + length (conc ws) - 1) = Ok c1).
      { unfold get_char. replace (S p + length (conc ws) - 1) with (p + length (conc ws)) by lia.
        now rewrite E1. }
      rewrite G. cbn [bind]. destruct (N.eqb_spec c1 cSP); [congruence|]. cbn [bind].
      replace (S p + length (conc ws) - S p) with (length (conc ws)) by lia.
      rewrite (suf_slice t (S p) (conc ws) r'); [reflexivity|auto].
  Qed.

  Lemma comment_not_close i r tag : suf t i r -> at_comment r = true -> is_close_tag t i tag = Ok false.
  Proof.
    intros H Hc. unfold at_comment in Hc. apply andb_true_iff in Hc as [Hc _].
    apply starts_iff in Hc as [s ->]. unfold is_close_tag.
    destruct (i + length tag + 2 <? length t); auto. simpl in H. apply suf_cons in H.
    rewrite Nat.add_1_r. rewrite (suf_slice t (S i) [cBANG] _ H : read_slice t (S i) 1 = _). reflexivity.
  Qed.

  Lemma ref_text_loop special tag : forall fuel r raw i,
    att t i r -> dropb r = r -> length t - i <= fuel ->
    exists j, text_loop fuel t special tag raw i = Ok (text_result raw (fst (words r)), j) /\
      att t j (snd (words r)) /\ i <= j.
  Proof.
    induction fuel as [|fuel IH]; intros r raw i H Hd Hf.
    - destruct r as [|c r].
      + pose proof (att_nil _ _ H) as E. exists i. cbn [text_loop]. rewrite E. rewrite words_nil.
        split; auto. destruct raw; simpl; rewrite ?app_nil_r; reflexivity.
      + apply att_cons in H. apply suf_get in H. lia.
    - destruct r as [|c r].
      { pose proof (att_nil _ _ H) as E. exists i. cbn [text_loop]. rewrite E. rewrite words_nil.
        split; auto. destruct raw; simpl; rewrite ?app_nil_r; reflexivity. }
      apply att_cons in H. destruct (suf_get _ _ _ _ H) as (G1 & _ & G3 & G2 & _).
      assert (Hb : is_blank c = false).
      { pose proof (dropb_head (c :: r)) as X. now rewrite Hd in X. }
      cbn [text_loop]. rewrite G2, G1. cbn [bind].
      destruct (N.eqb_spec c cLT) as [->|Hlt].
      + rewrite (ref_comment t i cLT r H eq_refl). cbn [bind].
        destruct (at_comment (cLT :: r)) eqn:Ec; cbn [negb].
        * rewrite (comment_not_close i _ tag H Ec).
          assert (Et : (if special then Ok false else Ok false) = Ok false) by (destruct special; auto).
          rewrite Et. cbn [bind].
          destruct (ref_skip_comment t i _ H Ec) as (j & -> & Hj & Lj). cbn [bind].
          destruct (att_skip _ _ _ Hj) as (j' & -> & Hj' & Lj'). cbn [bind].
          destruct (IH _ raw j' Hj' (dropb_idem _)) as (j2 & -> & H2 & L2); [lia|].
          rewrite words_dropb, <- words_comment in * by auto.
          exists j2. split; auto. split; auto. lia.
        * cbn [bind]. rewrite (words_lt r Ec). exists i. split; [|split; [left; exact H|auto]].
          destruct raw; simpl; rewrite ?app_nil_r; reflexivity.
      + cbn [bind]. pose proof (text_or c Hb Hlt) as Et.
        destruct (ref_chunk i c r H Et) as (w & ws & j & r' & -> & Hj & Lj & Ew). cbn [bind].
        destruct (suf_skip _ _ _ Hj) as (j' & -> & Hj' & Lj'). cbn [bind].
        set (raw' := Some (match raw with Some r0 => r0 ++ [cSP] ++ w ++ conc ws
                           | None => w ++ conc ws end)).
        destruct (IH _ raw' j' (or_introl Hj') (dropb_idem _)) as (j2 & -> & H2 & L2); [lia|].
        rewrite words_dropb in *. rewrite Ew. cbn [fst snd].
        exists j2. split; [|split; [auto|lia]]. f_equal. f_equal. unfold raw'.
        destruct raw; cbn [text_result conc flat_map]; fold (conc (ws ++ fst (words r')));
          rewrite conc_app, <- ?app_assoc; simpl; rewrite <- ?app_assoc; reflexivity.
  Qed.

  Lemma text_at_words r : text_at r =
    (text_result (if match r with c :: _ => is_blank c | [] => false end then Some [] else None) (fst (words r)),
     snd (words r)).
  Proof.
    unfold text_at. fold (words r). f_equal.
    destruct (match r with c :: _ => is_blank c | [] => false end).
    - rewrite join_conc. reflexivity.
    - destruct (fst (words r)) as [|w ws]; [reflexivity|]. rewrite join_conc. reflexivity.
  Qed.

  (** Text that begins with a word. *)
  Lemma ref_text i c r special tag : suf t i (c :: r) -> text_char c = true ->
    exists j, text_loop (S (length t)) t special tag None i = Ok (fst (text_at (c :: r)), j) /\
      att t j (snd (text_at (c :: r))) /\ i < j.
  Proof.
    intros H Hc. destruct (text_char_spec c Hc) as [Hb _].
    destruct (ref_text_loop special tag (S (length t)) (c :: r) None i) as (j & E & Hj & Lj).
    { left; auto. } { cbn [dropb]. now rewrite Hb. } { lia. }
    rewrite text_at_words, Hb. cbn [fst snd]. exists j. split; auto. split; auto.
    assert (i = j \/ i < j) as [->|] by lia; auto. exfalso.
    pose proof (att_eq _ _ _ Hj (or_introl H)) as X.
    rewrite (words_word c r Hc) in X. cbn [snd] in X.
    assert (L : length (snd (words (snd (span text_char (c :: r))))) < length (c :: r)).
    { assert (Lw : forall n y, length y <= n -> length (snd (words y)) <= length y).
      { induction n as [|n IHn]; intros y Hy.
        - destruct y; [rewrite words_nil; auto|simpl in Hy; lia].
        - rewrite <- (words_dropb y). pose proof (dropb_len y) as Ly. pose proof (dropb_head y) as Hh.
          destruct (dropb y) as [|a y']; [rewrite words_nil; simpl; lia|]. cbn [length] in Ly.
          destruct (N.eqb_spec a cLT) as [->|Ha].
          + destruct (at_comment (cLT :: y')) eqn:Ec.
            * rewrite (words_comment _ _ Ec). pose proof (after_comment_len cLT y').
              specialize (IHn (after_comment (cLT :: y'))). lia.
            * rewrite (words_lt _ Ec). simpl. lia.
          + pose proof (text_or a Hh Ha) as Ta. rewrite (words_word a y' Ta). cbn [snd].
            assert (E2 : snd (span text_char (a :: y')) = snd (span text_char y')) by (cbn [span]; rewrite Ta; reflexivity).
            rewrite E2. pose proof (span_len text_char y').
            specialize (IHn (snd (span text_char y'))). lia. }
      assert (E2 : snd (span text_char (c :: r)) = snd (span text_char r)) by (cbn [span]; rewrite Hc; reflexivity).
      rewrite E2. pose proof (span_len text_char r).
      specialize (Lw _ (snd (span text_char r)) (le_n _)). simpl. lia. }
    rewrite X in L. lia.
  Qed.

  (** Text behind a '<'. *)
  Lemma ref_text_lt p r special tag : suf t p (cLT :: r) ->
    exists j, text_loop (S (length t)) t special tag None (S p) = Ok (fst (text_at r), j) /\
      att t j (snd (text_at r)) /\ p < j.
  Proof.
    intros H. rewrite text_at_words. pose proof (suf_cons _ _ _ _ H) as H1.
    destruct r as [|c r].
    { destruct (ref_text_loop special tag (S (length t)) [] None (S p)) as (j & E & Hj & Lj); auto.
      { left; auto. } { lia. } exists j. split; auto. }
    destruct (is_blank c) eqn:Hb.
    2:{ destruct (ref_text_loop special tag (S (length t)) (c :: r) None (S p)) as (j & E & Hj & Lj).
        { left; auto. } { cbn [dropb]. now rewrite Hb. } { lia. } exists j. split; auto. }
    destruct (suf_get _ _ _ _ H1) as (G1 & _ & G3 & G2 & _).
    destruct (ref_chunk_lt p c r H Hb) as (ws & j & r' & Ec & Hj & Lj & Ew & _).
    cbn [text_loop]. rewrite G2, G1. cbn [bind].
    destruct (N.eqb_spec c cLT) as [->|Hlt]; [discriminate|]. cbn [bind]. rewrite Ec. cbn [bind].
    destruct (suf_skip _ _ _ Hj) as (j' & -> & Hj' & Lj'). cbn [bind].
    destruct (ref_text_loop special tag (length t) (dropb r') (Some (conc ws)) j') as (j2 & E2 & H2 & L2).
    { left; auto. } { apply dropb_idem. } { lia. }
    rewrite words_dropb in *. rewrite Ew. cbn [fst snd]. exists j2. split; [|split; [auto|lia]].
    etransitivity; [exact E2|]. cbn [text_result]. rewrite conc_app. reflexivity.
  Qed.
End Text.

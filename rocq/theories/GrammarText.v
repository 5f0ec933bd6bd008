(** * Exact results of parsing text runs. *)
From Coq Require Import List NArith Arith Bool Lia.
From Verif Require Import Base TrieModel DomModel ParserModel DomSpec GrammarSpec
  Lemmas TrieProofs Inv RegProofs ParseSafe GrammarScan.
Import ListNotations.
Local Open Scope nat_scope.

Inductive piece : Type := PG (g : gap) | PW (w : bytes).
Definition piece_src (p : piece) : bytes := match p with PG g => gap_src g | PW w => w end.
Definition psrc (ps : list piece) : bytes := flat_map piece_src ps.
Definition pwords (ps : list piece) : list bytes :=
  flat_map (fun p => match p with PW w => [w] | PG _ => [] end) ps.
Definition piece_ok (p : piece) : Prop :=
  match p with PG g => gap_ok g | PW w => text_word_ok w end.
Definition gap_first (ps : list piece) : Prop :=
  match ps with PW _ :: _ => False | _ => True end.
Fixpoint pieces_ok (ps : list piece) : Prop :=
  match ps with
  | [] => True
  | p :: ps' => piece_ok p /\ pieces_ok ps' /\ match p with PW _ => gap_first ps' | _ => True end
  end.
Definition conc (ws : list bytes) : bytes := flat_map (fun w => cSP :: w) ws.

Lemma conc_app a b : conc (a ++ b) = conc a ++ conc b.
Proof. apply flat_map_app. Qed.
Lemma stops_head r : stops r -> match r with [] => True | c :: _ => is_blank c = false end.
Proof. intros [->|(r' & -> & _)]; simpl; auto. Qed.
Lemma dropb_stops r : stops r -> dropb r = r.
Proof. intros H. apply dropb_id, stops_head; auto. Qed.

Section Text.
  Context (t : bytes).
  Let stopf := fun k c => let* b := text_continue t k c in Ok (negb b).

  Lemma blank_spec c : is_blank c = true -> is_fmt c = true \/ c = cSP.
  Proof.
    unfold is_blank. intros H. apply orb_true_iff in H as [H|H]; auto.
    apply N.eqb_eq in H. auto.
  Qed.
  Lemma text_char_spec c : text_char c = true -> is_blank c = false /\ c <> cLT.
  Proof.
    unfold text_char. intros H. apply andb_true_iff in H as [H1 H2].
    apply negb_true_iff in H1, H2. apply N.eqb_neq in H2. auto.
  Qed.
  Lemma stop_char k c : text_char c = true -> stopf k c = Ok false.
  Proof.
    intros H. apply text_char_spec in H as [H1 H2]. unfold stopf, text_continue.
    destruct (blank_cases c H1) as [H3 H4]. rewrite H4. cbn [negb].
    destruct (N.eqb_spec c cSP); [congruence|]. cbn [negb].
    destruct (N.eqb_spec c cLT); [congruence|]. reflexivity.
  Qed.
  Lemma stop_fmt k c : is_fmt c = true -> stopf k c = Ok true.
  Proof. intros H. unfold stopf, text_continue. rewrite H. reflexivity. Qed.
  Lemma stop_lt k : stopf k cLT = Ok true.
  Proof. reflexivity. Qed.
  Lemma stop_sp k c0 : nth_error t k = Some c0 ->
    stopf (S k) cSP = Ok (c0 =? cSP)%N.
  Proof.
    intros H. unfold stopf, text_continue. simpl. rewrite Nat.sub_0_r.
    unfold get_char. rewrite H. simpl. destruct (c0 =? cSP)%N; reflexivity.
  Qed.

  Lemma scan_pass a : forall i r f, suf t i (a ++ r) ->
    (forall m1 c m2, a = m1 ++ c :: m2 -> stopf (i + length m1) c = Ok false) ->
    scan_until (length a + f) t stopf i = scan_until f t stopf (i + length a).
  Proof.
    induction a as [|c a IH]; intros i r f H Hs; simpl; [now rewrite Nat.add_0_r|].
    destruct (suf_get t i c (a ++ r) H) as (-> & _ & _ & -> & _). cbn [bind].
    specialize (Hs [] c a eq_refl) as H0. simpl in H0. rewrite Nat.add_0_r in H0.
    rewrite H0. cbn [bind]. rewrite (IH (S i) r).
    - f_equal. lia.
    - eapply suf_cons; eauto.
    - intros m1 c' m2 E. specialize (Hs (c :: m1) c' m2). simpl in Hs.
      replace (S i + length m1) with (i + S (length m1)) by lia. apply Hs. now rewrite E.
  Qed.
  Lemma scan_pass_word w i r f : suf t i (w ++ r) -> all text_char w ->
    scan_until (length w + f) t stopf i = scan_until f t stopf (i + length w).
  Proof.
    intros H Hw. eapply scan_pass; eauto. intros m1 c m2 ->. apply stop_char, Hw.
    apply in_or_app. simpl; auto.
  Qed.
  Lemma scan_stop f i c r : suf t i (c :: r) -> stopf i c = Ok true ->
    scan_until f t stopf i = Ok i.
  Proof.
    intros H Hs. destruct f; simpl; destruct (suf_get t i c r H) as (-> & _ & _ & -> & _);
      cbn [bind]; rewrite Hs; reflexivity.
  Qed.
  Lemma scan_end f i : suf t i [] -> scan_until f t stopf i = Ok i.
  Proof. intros H. destruct (suf_nil t i H) as (E & _). destruct f; simpl; rewrite E; auto. Qed.

  (** Result of scanning a chunk from the end of its first word. *)
  Lemma chunk_scan n : forall ps r p c0, length ps <= n -> pieces_ok ps -> gap_first ps ->
    stops r -> suf t (S p) (psrc ps ++ r) -> nth_error t p = Some c0 -> c0 <> cSP ->
    exists ws ps' (sp : bool) tail,
      length ps' <= length ps /\ pieces_ok ps' /\ pwords ps = ws ++ pwords ps' /\
      psrc ps ++ r = (conc ws ++ if sp then [cSP] else []) ++ tail /\
      dropb tail = dropb (psrc ps' ++ r) /\
      (forall f, scan_until (length (conc ws ++ if sp then [cSP] else []) + f) t stopf (S p)
         = Ok (S p + length (conc ws ++ if sp then [cSP] else []))) /\
      (sp = false -> exists c1, nth_error t (p + length (conc ws)) = Some c1 /\ c1 <> cSP).
  Proof.
    induction n as [|n IH]; intros ps r p c0 Hn Hok Hg Hr H Hc Hne.
    - destruct ps; [|simpl in Hn; lia]. exists [], [], false, r. simpl.
      repeat split; auto.
      + intros f. rewrite Nat.add_0_r. simpl in H. destruct Hr as [->|(r' & -> & _)].
        * now apply scan_end.
        * eapply scan_stop; eauto.
      + intros _. exists c0. rewrite Nat.add_0_r. auto.
    - destruct ps as [|[g|w] ps]; [apply (IH [] r p c0); simpl; auto; lia| |contradiction].
      simpl in Hok. destruct Hok as (Hgo & Hok & _). simpl in Hn.
      (* stopping right here *)
      assert (Stop0 : forall c s, gap_src g ++ psrc ps ++ r = c :: s ->
        (forall k, stopf k c = Ok true) ->
        exists ws ps' (sp : bool) tail,
        length ps' <= length (PG g :: ps) /\ pieces_ok ps' /\
        pwords (PG g :: ps) = ws ++ pwords ps' /\
        psrc (PG g :: ps) ++ r = (conc ws ++ if sp then [cSP] else []) ++ tail /\
        dropb tail = dropb (psrc ps' ++ r) /\
        (forall f, scan_until (length (conc ws ++ if sp then [cSP] else []) + f) t stopf (S p)
           = Ok (S p + length (conc ws ++ if sp then [cSP] else []))) /\
        (sp = false -> exists c1, nth_error t (p + length (conc ws)) = Some c1 /\ c1 <> cSP)).
      { intros c s E Hs. exists [], (PG g :: ps), false, (psrc (PG g :: ps) ++ r).
        split; [auto|]. split; [simpl; auto|]. split; [reflexivity|]. split; [reflexivity|].
        split; [reflexivity|]. split.
        - intros f. simpl. rewrite Nat.add_0_r.
          simpl in H. rewrite <- app_assoc, E in H. eapply scan_stop; eauto.
        - intros _. exists c0. simpl. rewrite Nat.add_0_r. auto. }
      destruct g as [s|body].
      2:{ eapply (Stop0 cLT). reflexivity. intros. apply stop_lt. }
      simpl in Hgo. destruct Hgo as [Hs0 Hsb]. destruct s as [|c s]; [congruence|]. clear Hs0.
      destruct (blank_spec c (Hsb c (or_introl eq_refl))) as [Hf|Esp].
      { eapply (Stop0 c). reflexivity. intros. now apply stop_fmt. }
      subst c. clear Stop0. simpl in H. rewrite <- app_assoc in H. simpl in H.
      pose proof (suf_cons _ _ _ _ H) as H1.
      assert (Hb' : blanks s) by (intros x Hx; apply Hsb; simpl; auto).
      assert (Pass : forall f, scan_until (S f) t stopf (S p) = scan_until f t stopf (S (S p))).
      { intros f. simpl. destruct (suf_get _ _ _ _ H) as (-> & _ & _ & -> & _). cbn [bind].
        rewrite (stop_sp p c0 Hc). cbn [bind]. destruct (N.eqb_spec c0 cSP); [congruence|].
        reflexivity. }
      assert (Stop1 : (forall f, scan_until f t stopf (S (S p)) = Ok (S (S p))) ->
        exists ws ps' (sp : bool) tail,
        length ps' <= length (PG (Ws (cSP :: s)) :: ps) /\ pieces_ok ps' /\
        pwords (PG (Ws (cSP :: s)) :: ps) = ws ++ pwords ps' /\
        psrc (PG (Ws (cSP :: s)) :: ps) ++ r = (conc ws ++ if sp then [cSP] else []) ++ tail /\
        dropb tail = dropb (psrc ps' ++ r) /\
        (forall f, scan_until (length (conc ws ++ if sp then [cSP] else []) + f) t stopf (S p)
           = Ok (S p + length (conc ws ++ if sp then [cSP] else []))) /\
        (sp = false -> exists c1, nth_error t (p + length (conc ws)) = Some c1 /\ c1 <> cSP)).
      { intros Hst. exists [], (PG (Ws (cSP :: s)) :: ps), true, (s ++ psrc ps ++ r).
        split; [auto|]. split; [simpl; repeat split; auto; discriminate|]. split; [reflexivity|].
        split; [simpl; now rewrite <- app_assoc|].
        split; [simpl; rewrite <- app_assoc; reflexivity|]. split; [|discriminate].
        intros f. cbn [app conc flat_map length Nat.add]. rewrite Pass, Hst.
        f_equal. lia. }
      destruct s as [|c s].
      + (* a single space *)
        destruct ps as [|[[s2|b2]|w] ps].
        * apply Stop1. intros f. simpl in H1. destruct Hr as [->|(r' & -> & _)];
            [apply scan_end; auto|eapply scan_stop; eauto].
        * apply Stop1. intros f. simpl in Hok. destruct Hok as ((X & Y) & _).
          destruct s2 as [|c s2]; [congruence|]. simpl in H1.
          eapply scan_stop; [exact H1|].
          destruct (blank_spec c (Y c (or_introl eq_refl))) as [Hf| ->];
            [now apply stop_fmt|].
          rewrite (stop_sp (S p) cSP); [reflexivity|]. now apply (suf_get _ _ _ _ H).
        * apply Stop1. intros f. simpl in H1. eapply scan_stop; [exact H1|reflexivity].
        * simpl in Hok. destruct Hok as ((Hw1 & Hw2) & Hok & Hgf). simpl in H1.
          rewrite <- app_assoc in H1.
          destruct (@exists_last _ w Hw1) as (w0 & cl & Ew).
          assert (Hcl : nth_error t (S (p + length w)) = Some cl /\ cl <> cSP).
          { rewrite Ew in H1. destruct (suf_last t (S (S p)) w0 cl _ H1) as [_ E].
            rewrite <- Ew in E. rewrite <- E. split; [f_equal; lia|].
            assert (T : text_char cl = true).
            { apply Hw2. rewrite Ew. apply in_or_app. simpl; auto. }
            apply text_char_spec in T as [T _]. intros ->. discriminate. }
          destruct Hcl as [Hcl1 Hcl2].
          destruct (IH ps r (S (p + length w)) cl) as
            (ws & ps' & sp & tail & I1 & I2 & I3 & I4 & I5 & I6 & I7); auto.
          { simpl in Hn. lia. }
          { replace (S (S (p + length w))) with (S (S p) + length w) by lia.
            apply suf_app; auto. }
          exists (w :: ws), ps', sp, tail.
          split; [simpl; lia|]. split; [auto|]. split; [simpl; now rewrite I3|].
          split; [simpl; rewrite <- !app_assoc, I4; now rewrite <- !app_assoc|].
          split; [auto|]. split.
          -- intros f. replace (length (conc (w :: ws) ++ (if sp then [cSP] else [])) + f)
               with (S (length w + (length (conc ws ++ if sp then [cSP] else []) + f))).
             2:{ simpl. rewrite !app_length. lia. }
             rewrite Pass, (scan_pass_word w _ (psrc ps ++ r)) by auto.
             replace (S (S p) + length w) with (S (S (p + length w))) by lia.
             rewrite I6. f_equal. simpl. rewrite !app_length. lia.
          -- intros E. destruct (I7 E) as (c1 & E1 & E2). exists c1. split; auto.
             rewrite <- E1. f_equal. simpl. rewrite app_length. lia.
      + apply Stop1. intros f. simpl in H1. eapply scan_stop; [exact H1|].
        destruct (blank_spec c (Hb' c (or_introl eq_refl))) as [Hf| ->];
          [now apply stop_fmt|].
        rewrite (stop_sp (S p) cSP); [reflexivity|]. now apply (suf_get _ _ _ _ H).
  Qed.

  Lemma text_chunk_exact w ps r i : text_word_ok w -> pieces_ok ps -> gap_first ps -> stops r ->
    suf t i (w ++ psrc ps ++ r) ->
    exists ws ps' j tail, length ps' <= length ps /\ pieces_ok ps' /\
      pwords ps = ws ++ pwords ps' /\ text_chunk t i = Ok (w ++ conc ws, j) /\
      i < j /\ suf t j tail /\ dropb tail = dropb (psrc ps' ++ r).
  Proof.
    intros [Hw1 Hw2] Hok Hg Hr H.
    destruct (@exists_last _ w Hw1) as (w0 & cl & Ew).
    assert (Lw : length w = S (length w0)) by (rewrite Ew, app_length; simpl; lia).
    assert (Hcl : nth_error t (i + length w0) = Some cl /\ cl <> cSP).
    { rewrite Ew, <- app_assoc in H. simpl in H. split; [eapply suf_nth; eauto|].
      assert (T : text_char cl = true).
      { apply Hw2. rewrite Ew. apply in_or_app. simpl; auto. }
      apply text_char_spec in T as [T _]. intros ->. discriminate. }
    destruct Hcl as [Hcl1 Hcl2].
    destruct (chunk_scan (length ps) ps r (i + length w0) cl) as
      (ws & ps' & sp & tail & I1 & I2 & I3 & I4 & I5 & I6 & I7); auto.
    { replace (S (i + length w0)) with (i + length w) by lia. apply suf_app; auto. }
    set (x := if sp then [cSP] else []) in *.
    assert (H2 : suf t i ((w ++ conc ws ++ x) ++ tail)).
    { rewrite I4 in H. now rewrite <- !app_assoc in *. }
    pose proof (suf_len _ _ _ H2) as L. rewrite !app_length in L.
    exists ws, ps', (i + length (w ++ conc ws ++ x)), tail.
    split; [auto|]. split; [auto|]. split; [auto|]. split; [|split; [|split]].
    2:{ rewrite app_length. lia. }
    2:{ now apply suf_app. }
    2:{ auto. }
    unfold text_chunk. fold stopf.
    assert (Hs : scan_until (length t) t stopf i = Ok (i + length (w ++ conc ws ++ x))).
    { replace (length t) with (length w + (length (conc ws ++ x) + (length t - length w - length (conc ws ++ x)))).
      2:{ rewrite !app_length. lia. }
      rewrite (scan_pass_word w i (psrc ps ++ r)) by auto.
      replace (i + length w) with (S (i + length w0)) by lia. rewrite I6. f_equal.
      rewrite !app_length. lia. }
    rewrite Hs. cbn [bind]. clear Hs.
    destruct (Nat.ltb_spec 0 (i + length (w ++ conc ws ++ x))) as [_|]; [|rewrite app_length in *; lia].
    destruct sp; subst x.
    - assert (G : get_char t (i + length (w ++ conc ws ++ [cSP]) - 1) = Ok cSP).
      { rewrite app_assoc. apply (suf_last t i (w ++ conc ws) cSP tail). now rewrite <- (app_assoc w). }
      rewrite G. cbn [bind]. rewrite N.eqb_refl.
      assert (E : i + length (w ++ conc ws ++ [cSP]) - i = S (length (w ++ conc ws))).
      { rewrite !app_length. simpl. lia. }
      rewrite E. cbn [bind].
      rewrite (suf_slice t i (w ++ conc ws) ([cSP] ++ tail)); [reflexivity|].
      now rewrite <- !app_assoc in *.
    - rewrite app_nil_r in *. destruct (I7 eq_refl) as (c1 & E1 & E2).
      assert (G : get_char t (i + length (w ++ conc ws) - 1) = Ok c1).
      { unfold get_char.
        replace (i + length (w ++ conc ws) - 1) with (i + length w0 + length (conc ws)).
        - now rewrite E1.
        - rewrite app_length. lia. }
      rewrite G. cbn [bind]. destruct (N.eqb_spec c1 cSP); [congruence|]. cbn [bind].
      replace (i + length (w ++ conc ws) - i) with (length (w ++ conc ws)) by lia.
      rewrite (suf_slice t i (w ++ conc ws) tail); [reflexivity|auto].
  Qed.

  Definition text_result (raw : option bytes) (ws : list bytes) : bytes :=
    match raw, ws with
    | Some r0, _ => r0 ++ conc ws
    | None, [] => []
    | None, w :: ws' => w ++ conc ws'
    end.

  Lemma not_close i body r tag : suf t i (com_src body ++ r) -> is_close_tag t i tag = Ok false.
  Proof.
    intros H. unfold is_close_tag. destruct (i + length tag + 2 <? length t); auto.
    unfold com_src in H. simpl in H. apply suf_cons in H. rewrite Nat.add_1_r.
    rewrite (suf_slice t (S i) [cBANG] _ H : read_slice t (S i) 1 = _). reflexivity.
  Qed.

  Lemma text_loop_exact special tag n : forall ps r raw i fuel,
    length ps <= n -> pieces_ok ps -> stops r -> suf t i (dropb (psrc ps ++ r)) ->
    length t - i <= fuel ->
    exists j, text_loop fuel t special tag raw i = Ok (text_result raw (pwords ps), j) /\
      suf t j r /\ i <= j.
  Proof.
    induction n as [|n IH]; intros ps r raw i fuel Hn Hok Hr H Hf.
    - destruct ps; [|simpl in Hn; lia]. simpl in H. rewrite dropb_stops in H by auto.
      exists i. split; [|auto]. simpl. destruct Hr as [->|(r' & -> & Hc)].
      + destruct (suf_nil _ _ H) as (E & _).
        destruct fuel; cbn [text_loop]; rewrite E; destruct raw; simpl; rewrite ?app_nil_r; auto.
      + destruct (suf_get _ _ _ _ H) as (G1 & _ & _ & G2 & _).
        assert (E : is_comment t i = Ok false) by (eapply is_comment_no; eauto).
        destruct fuel; cbn [text_loop]; rewrite G2, G1; cbn [bind]; rewrite N.eqb_refl, E;
          cbn [bind negb]; destruct raw; simpl; rewrite ?app_nil_r; auto.
    - destruct ps as [|[[s|body]|w] ps].
      + apply (IH [] r raw i fuel); simpl; auto; lia.
      + simpl in Hok. destruct Hok as ((_ & Hb) & Hok & _). simpl in H.
        rewrite <- app_assoc, dropb_app in H by auto.
        apply (IH ps r raw i fuel); auto. simpl in Hn. lia.
      + simpl in Hok. destruct Hok as (Hb & Hok & _). simpl in H, Hn.
        assert (H' : suf t i (com_src body ++ psrc ps ++ r)).
        { unfold com_src. rewrite <- !app_assoc in *. exact H. }
        clear H. pose proof (is_comment_yes _ _ _ _ H') as Ec.
        destruct (skip_comment_exact _ _ _ _ Hb H') as [Es Hs].
        destruct (suf_skip _ _ _ Hs) as (j & Ej & Hj & Lj).
        assert (Hlt : length (com_src body) > 0) by (unfold com_src; simpl; lia).
        destruct (suf_get t i cLT _ H') as (G1 & _ & _ & G2 & _).
        pose proof (suf_len _ _ _ H') as L. rewrite app_length in L.
        destruct fuel as [|f]; [lia|].
        destruct (IH ps r raw j f) as (j' & E & S' & L'); auto; try lia.
        exists j'. split; [|split; [auto|lia]].
        cbn [text_loop]. rewrite G2, G1. cbn [bind]. rewrite N.eqb_refl, Ec. cbn [bind negb].
        rewrite (not_close _ _ _ tag H').
        assert (Et : (if special then Ok false else Ok false) = Ok false) by (destruct special; auto).
        rewrite Et. cbn [bind]. rewrite Es. cbn [bind]. rewrite Ej. cbn [bind].
        exact E.
      + simpl in Hok. destruct Hok as (Hw & Hok & Hg). simpl in H, Hn.
        rewrite <- app_assoc in H.
        destruct Hw as [Hw1 Hw2]. destruct w as [|c w]; [congruence|].
        assert (Hc : is_blank c = false /\ c <> cLT) by (apply text_char_spec, Hw2; simpl; auto).
        rewrite dropb_id in H by (simpl; apply Hc).
        destruct (text_chunk_exact (c :: w) ps r i) as
          (ws & ps' & j & tail & I1 & I2 & I3 & I4 & I5 & I6 & I7); auto.
        { split; auto. }
        destruct (suf_skip _ _ _ I6) as (j' & Ej & Hj & Lj). rewrite I7 in Hj.
        destruct (suf_get t i c _ H) as (G1 & _ & G3 & G2 & _).
        destruct fuel as [|f]; [lia|].
        set (raw' := Some (match raw with Some r0 => r0 ++ [cSP] ++ (c :: w) ++ conc ws
                           | None => (c :: w) ++ conc ws end)).
        destruct (IH ps' r raw' j' f) as (j'' & E & S' & L'); auto; try lia.
        exists j''. split; [|split; [auto|lia]].
        cbn [text_loop]. rewrite G2, G1. cbn [bind].
        destruct (N.eqb_spec c cLT); [destruct Hc; congruence|]. cbn [bind].
        rewrite I4. cbn [bind]. rewrite Ej. cbn [bind].
        fold raw'. rewrite E. f_equal. f_equal.
        change (pwords (PW (c :: w) :: ps)) with ((c :: w) :: pwords ps). rewrite I3. unfold raw'.
        destruct raw; cbn [text_result conc flat_map]; fold (conc (ws ++ pwords ps'));
          rewrite conc_app, <- ?app_assoc; simpl; rewrite <- ?app_assoc; reflexivity.
  Qed.
End Text.

(** ** Runs as pieces *)
Definition run_pieces (w : bytes) (more : list (list gap * bytes)) (after : list gap) : list piece :=
  PW w :: flat_map (fun gw => map PG (fst gw) ++ [PW (snd gw)]) more ++ map PG after.
Lemma psrc_app a b : psrc (a ++ b) = psrc a ++ psrc b.
Proof. apply flat_map_app. Qed.
Lemma psrc_gaps l : psrc (map PG l) = gaps_src l.
Proof. induction l; simpl; auto. now rewrite IHl. Qed.
Lemma pwords_app a b : pwords (a ++ b) = pwords a ++ pwords b.
Proof. apply flat_map_app. Qed.
Lemma pwords_gaps l : pwords (map PG l) = [].
Proof. induction l; simpl; auto. Qed.
Lemma run_src w more after : psrc (run_pieces w more after) = run_src_of w more after.
Proof.
  unfold run_pieces, run_src_of. simpl. f_equal. rewrite psrc_app, psrc_gaps. f_equal.
  induction more as [|[gs w'] more IH]; simpl; auto.
  rewrite psrc_app, IH, psrc_app, psrc_gaps. simpl. now rewrite app_nil_r.
Qed.
Lemma run_words w more after : pwords (run_pieces w more after) = w :: map snd more.
Proof.
  unfold run_pieces. simpl. f_equal. rewrite pwords_app, pwords_gaps, app_nil_r.
  induction more as [|[gs w'] more IH]; simpl; auto.
  rewrite pwords_app, IH, pwords_app, pwords_gaps. reflexivity.
Qed.
Lemma conc_more more : conc (map snd more) = flat_map (fun gw : list gap * bytes => cSP :: snd gw) more.
Proof. induction more as [|[gs w'] more IH]; simpl; auto. now rewrite IH. Qed.
Lemma gaps_pieces l ps : (forall g, In g l -> gap_ok g) -> pieces_ok ps -> pieces_ok (map PG l ++ ps).
Proof.
  induction l as [|g l IH]; intros H Hp; simpl; auto.
  repeat split; auto. - apply H; simpl; auto. - apply IH; auto. intros x Hx. apply H; simpl; auto.
Qed.
Lemma run_pieces_ok w more after : run_ok w more after ->
  pieces_ok (run_pieces w more after) /\
  exists ps, run_pieces w more after = PW w :: ps /\ gap_first ps.
Proof.
  intros H. destruct H as (H1 & H2 & H3). unfold run_pieces.
  assert (G : pieces_ok (flat_map (fun gw => map PG (fst gw) ++ [PW (snd gw)]) more ++ map PG after) /\
              gap_first (flat_map (fun gw => map PG (fst gw) ++ [PW (snd gw)]) more ++ map PG after)).
  { induction more as [|[gs w'] more IH].
    - simpl. split.
      + rewrite <- (app_nil_r (map PG after)). apply gaps_pieces; simpl; auto.
      + destruct after; simpl; auto.
    - destruct IH as [I1 I2]; [intros; apply H2; simpl; auto|].
      destruct (H2 gs w') as (A & B & C); [simpl; auto|]. cbn [flat_map fst snd].
      rewrite <- !app_assoc. split.
      + apply gaps_pieces; auto. cbn [app pieces_ok piece_ok]. auto.
      + destruct gs; [congruence|]. simpl. auto. }
  split; [cbn [pieces_ok piece_ok]; tauto|].
  eexists. split; [reflexivity|]. apply G.
Qed.

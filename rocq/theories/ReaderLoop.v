(** * The main loop agrees with the reference reader. *)
From Coq Require Import List NArith Arith Bool Lia.
From Verif Require Import Base TrieModel DomModel ParserModel DomSpec GrammarSpec ReaderSpec
  Lemmas TrieProofs Tables Inv Surgery Attach Link RegProofs ParseSafe ParseTree ParseLoop
  Walk EditProofs EditOps GrammarScan GrammarText GrammarTag GrammarLoop
  ReaderScan ReaderTag ReaderText.
Import ListNotations.
Local Open Scope nat_scope.

Lemma attrs_can : forall f can bs ps r bs' ps' r',
  attrs_at f can bs ps r = Some (true, bs', ps', r') -> can = true.
Proof.
  induction f as [|f IH]; intros can bs ps r bs' ps' r'; cbn [attrs_at]; [discriminate|].
  destruct (skip_blanks r) as [|c r1]; [intros E; injection E; auto|].
  destruct (c =? cGT)%N; [intros E; injection E; auto|].
  destruct (c =? cSLASH)%N; [intros E; apply IH in E; discriminate|].
  destruct (prop_at (c :: r1)) as [[kk r2]|]; [|discriminate].
  destruct r2 as [|e r3]; [intros E; eauto|].
  destruct (e =? cEQ)%N; [|intros E; eauto].
  destruct (prop_at r3) as [[v r4]|]; [|discriminate]. intros E; eauto.
Qed.
Lemma tag_can r n bs ps r' : tag_at r = Some (n, bs, ps, true, r') -> ~ leaf_tag n.
Proof.
  unfold tag_at. set (p := fun c => negb (c =? cGT)%N && negb (is_blank c)).
  set (w := fst (span p r)). set (r1 := snd (span p r)).
  set (single := starts [cGT] r1 && (last w 0 =? cSLASH)%N).
  destruct (attrs_at _ _ _ _ _) as [[[[can bs'] ps'] r2]|] eqn:E; [|discriminate].
  intros E2. injection E2 as E3 -> -> -> ->. apply attrs_can in E.
  apply andb_true_iff in E as [E Ev]. apply andb_true_iff in E as [Eb Es].
  apply negb_true_iff in Es. rewrite Es in E3. rewrite Es in Ev. subst n.
  intros [V|V]; [rewrite V in Ev; discriminate|].
  apply negb_true_iff in Eb. unfold w in V. destruct r as [|c r]; [discriminate|].
  cbn [span] in V. destruct (p c); [|discriminate]. cbn in V. injection V as ->. discriminate.
Qed.

Section Loop.
  Context (n0 : nat) (d0 : dom) (k0 : kids) (b : key) (bot : list frame).
  Context (M : pmode n0 b bot).
  Context (t : bytes) (below : option bytes) (base : bytes) (limit : nat).
  Context (Hbase : top_tag below bot = Ok base) (Hlimit : limit + length bot = max_depth).
  Context (dS : dom) (kS : kids).
  Context (HnS : n0 = length (nodes dS)).
  Local Notation PSt := (PS n0 d0 k0 b bot).
  Local Notation nS := (length (nodes dS)).

  (** The open elements: frames of the parser and open elements of the reader. *)
  Inductive zip (d : dom) (k : kids) : nat -> list nat -> list frame -> list open_elem -> Prop :=
  | zip_bot : zip d k nS (kS b) bot []
  | zip_push lo l0 s st x n bs ps before ys : zip d k lo l0 s st ->
      lo <= x -> k (curk b s) = l0 ++ ys ++ [x] -> kforest lo x d k ys before ->
      content d x = (Some TDocument, Some n, None, bs, ps) ->
      zip d k (S x) [] ((x, n) :: s) ((n, bs, ps, before) :: st).

  Lemma zip_len d k lo l0 s st : zip d k lo l0 s st -> length s = length st + length bot.
  Proof. induction 1; simpl in *; auto. Qed.
  Lemma zip_nil d k lo l0 s : zip d k lo l0 s [] -> s = bot.
  Proof. intros Z. inversion Z. reflexivity. Qed.
  Lemma zip_lo d k lo l0 s st : zip d k lo l0 s st -> nS <= lo.
  Proof. induction 1; lia. Qed.
  Lemma zip_old d k lo l0 s st : zip d k lo l0 s st -> old_key lo (curk b s).
  Proof.
    destruct 1; [|simpl; lia]. rewrite (curk_bot n0 b bot M).
    destruct M as [(-> & _ & H)|(-> & _ & H)]; simpl; auto. lia.
  Qed.
  Lemma zip_top d k lo l0 s st : zip d k lo l0 s st -> top_tag below s = Ok (top_name base st).
  Proof. destruct 1; simpl; auto. Qed.

  Lemma zip_cases d k lo l0 s st : zip d k lo l0 s st ->
    (s = bot /\ curk b s = b) \/ (exists x, curk b s = Par x /\ nS <= x).
  Proof.
    destruct 1 as [|lo l0 s st x n bs ps before ys Z Hx].
    - left. split; auto. apply (curk_bot n0 b bot M).
    - right. exists x. split; auto. pose proof (zip_lo _ _ _ _ _ _ Z). lia.
  Qed.

  Lemma kforest_keep lo hi lo' hi' d k d' k' xs ts : kforest lo hi d k xs ts ->
    (forall y, lo <= y < hi -> same_content d d' y /\ k' (Par y) = k (Par y)) ->
    lo' <= lo -> hi <= hi' -> kforest lo' hi' d' k' xs ts.
  Proof.
    intros F H L1 L2. eapply Forall2_map_r; [exact F|]. apply Forall_forall. intros tr _ y Hy.
    eapply kshows_keep; eauto.
  Qed.

  Lemma zip_keep d k d' k' lo l0 s st : zip d k lo l0 s st ->
    (forall y, y < lo -> same_content d d' y) ->
    (forall q, old_key lo q -> q <> curk b s -> k' q = k q) -> zip d' k' lo l0 s st.
  Proof.
    induction 1 as [|lo l0 s st x n bs ps before ys Z IH Hx Hk F C]; intros Hc Hq; [constructor|].
    pose proof (zip_old _ _ _ _ _ _ Z) as Ho.
    assert (Hne : forall q, old_key lo q -> q <> curk b ((x, n) :: s)).
    { intros q Hq' E. subst q. simpl in Hq'. lia. }
    assert (Hup : forall q, old_key lo q -> old_key (S x) q).
    { intros q. destruct q; simpl; lia. }
    apply zip_push with (lo := lo) (l0 := l0) (ys := ys); auto.
    - apply IH.
      + intros y Hy. apply Hc. lia.
      + intros q Hq' _. apply Hq; auto.
    - rewrite Hq; auto.
    - eapply kforest_keep; [eassumption| |lia|lia]. intros y Hy. split; [apply Hc; lia|].
      apply Hq; [simpl; lia|]. simpl. intros E. injection E as E. lia.
    - rewrite <- C. apply Hc. lia.
  Qed.

  (** The end of the input closes every element. *)
  Lemma zip_close d k lo l0 s st hi : zip d k lo l0 s st -> forall xs cur, lo <= hi ->
    k (curk b s) = l0 ++ xs -> kforest lo hi d k xs cur ->
    exists zs, k b = kS b ++ zs /\ kforest nS hi d k zs (close_all cur st).
  Proof.
    induction 1 as [|lo l0 s st x n bs ps before ys Z IH Hx Hk F C]; intros xs cur Hl Hks Hf.
    - rewrite (curk_bot n0 b bot M) in Hks. eauto.
    - cbn [close_all]. apply (IH (ys ++ [x]) (before ++ [Elem n bs ps cur])); auto; [lia|].
      apply Forall2_app.
      + eapply kforest_keep; [eassumption| |lia|lia]. intros y Hy. split; reflexivity.
      + constructor; [|constructor]. apply ks_elem; [lia|auto|].
        simpl in Hks. rewrite Hks. eapply kforest_keep; [eassumption| |lia|lia]. intros y Hy. split; reflexivity.
  Qed.

  (** Growth below an open element. *)
  Lemma ext_in d k d' k' x ys zs e1 e2 : ext b dS kS d k ys e1 -> ext (Par x) d k d' k' zs e2 ->
    nS <= x -> ext b dS kS d' k' ys (e1 ++ e2).
  Proof.
    intros [A0 A1 A2 A3 A4] [B0 B1 B2 B3 B4] Hx.
    assert (Hb : b <> Par x /\ old_key nS b).
    { destruct M as [(-> & _ & H)|(-> & _ & H)]; split; simpl; auto; try discriminate.
      - intros E. injection E as E. lia.
      - lia. }
    destruct Hb as [Hb Ho]. constructor.
    - rewrite B0, A0. unfold notes. now rewrite fold_left_app.
    - lia.
    - intros y Hy. eapply same_content_trans; [apply A2; auto|apply B2; lia].
    - intros q' Hq' Ho'. rewrite B3, A3; auto.
      + intros E. subst q'. simpl in Ho'. lia.
      + eapply old_key_mono; eauto.
    - rewrite B3; auto. eapply old_key_mono; eauto.
  Qed.

  Record at_state (s : list frame) (prev : nat) (d : dom) (k : kids) (cur : list tree)
      (st : list open_elem) (us : list (bytes * bool)) (lo : nat) (l0 xs : list nat) : Prop := {
    as_ps : PSt s prev d k;
    as_zip : zip d k lo l0 s st;
    as_lo : lo <= length (nodes d);
    as_kids : k (curk b s) = l0 ++ xs;
    as_forest : kforest lo (length (nodes d)) d k xs cur;
    as_ext : exists zs, ext b dS kS d k zs us }.

  (** One more node at the end of the innermost open element. *)
  Lemma as_add s prev d k cur st us lo l0 xs prev' d' k' x tr evs :
    at_state s prev d k cur st us lo l0 xs -> PSt s prev' d' k' ->
    ext (curk b s) d k d' k' [x] evs -> x = length (nodes d) -> length (nodes d') = S x ->
    kshows x (S x) d' k' x tr ->
    at_state s prev' d' k' (cur ++ [tr]) st (us ++ evs) lo l0 (xs ++ [x]).
  Proof.
    intros [P Z L K F (zs & E)] P' X Hx Hl Hs.
    pose proof (zip_old _ _ _ _ _ _ Z) as Ho.
    constructor; auto.
    - eapply zip_keep; eauto.
      + intros y Hy. apply (e_content _ _ _ _ _ _ _ X). lia.
      + intros q Hq Hne. apply (e_old _ _ _ _ _ _ _ X); auto. eapply old_key_mono; eauto.
    - lia.
    - rewrite (e_new _ _ _ _ _ _ _ X), K, app_assoc. reflexivity.
    - apply Forall2_app.
      + eapply kforest_keep; [eassumption| |lia|lia]. intros y Hy. split.
        * apply (e_content _ _ _ _ _ _ _ X). lia.
        * apply (e_old _ _ _ _ _ _ _ X); [|simpl; lia]. intros E'. rewrite <- E' in Ho. simpl in Ho. lia.
      + constructor; [|constructor]. eapply kshows_keep; [eassumption| |lia|lia]. intros y Hy. split; reflexivity.
    - destruct (zip_cases _ _ _ _ _ _ Z) as [[_ Eb]|(x' & Eb & Hx')]; rewrite Eb in X.
      + eexists. eapply ext_trans; eauto.
      + exists zs. eapply ext_in; eauto.
  Qed.

  (** A new open element. *)
  Lemma as_open s prev d k cur st us lo l0 xs d' k' x n bs ps :
    at_state s prev d k cur st us lo l0 xs -> PSt ((x, n) :: s) x d' k' ->
    ext (curk b s) d k d' k' [x] [(n, true)] -> x = length (nodes d) -> length (nodes d') = S x ->
    content d' x = (Some TDocument, Some n, None, bs, ps) -> k' (Par x) = [] ->
    at_state ((x, n) :: s) x d' k' [] ((n, bs, ps, cur) :: st) (us ++ [(n, true)]) (S x) [] [].
  Proof.
    intros [P Z L K F (zs & E)] P' X Hx Hl Hc Hk.
    pose proof (zip_old _ _ _ _ _ _ Z) as Ho.
    constructor; auto.
    - apply zip_push with (lo := lo) (l0 := l0) (ys := xs); auto; try lia.
      + eapply zip_keep; eauto.
        * intros y Hy. apply (e_content _ _ _ _ _ _ _ X). lia.
        * intros q Hq Hne. apply (e_old _ _ _ _ _ _ _ X); auto. eapply old_key_mono; eauto.
      + rewrite (e_new _ _ _ _ _ _ _ X), K, app_assoc. reflexivity.
      + rewrite Hx. eapply kforest_keep; [eassumption| |lia|lia]. intros y Hy. split.
        * apply (e_content _ _ _ _ _ _ _ X). lia.
        * apply (e_old _ _ _ _ _ _ _ X); [|simpl; lia]. intros E'. rewrite <- E' in Ho. simpl in Ho. lia.
    - lia.
    - constructor.
    - destruct (zip_cases _ _ _ _ _ _ Z) as [[_ Eb]|(x' & Eb & Hx')]; rewrite Eb in X.
      + eexists. eapply ext_trans; eauto.
      + exists zs. eapply ext_in; eauto.
  Qed.

  (** The end tag of the innermost open element. *)
  Lemma as_close s prev d k cur st us lo l0 xs n bs ps before st' :
    at_state s prev d k cur st us lo l0 xs -> st = (n, bs, ps, before) :: st' ->
    exists x s' lo' l0' xs', s = (x, n) :: s' /\ length bot < length s /\
      at_state s' x d k (before ++ [Elem n bs ps cur]) st' us lo' l0' xs'.
  Proof.
    intros [P Z L K F E] Est.
    pose proof (zip_len _ _ _ _ _ _ Z) as Hlen.
    destruct Z as [|lo' l0' s' st2 x n2 bs2 ps2 before2 ys Z' Hx Hk Fy C]; [discriminate|].
    injection Est as -> -> -> -> ->.
    assert (Hl : length bot < length ((x, n) :: s')).
    { simpl in *. setoid_rewrite Hlen. lia. }
    exists x, s', lo', l0', (ys ++ [x]). split; auto. split; auto.
    constructor; auto.
    - eapply ps_pop; eauto.
    - lia.
    - apply Forall2_app.
      + eapply kforest_keep; [eassumption| |lia|lia]. intros y Hy. split; reflexivity.
      + constructor; [|constructor]. apply ks_elem; [lia|auto|].
        simpl in K. rewrite K. eapply kforest_keep; [eassumption| |lia|lia]. intros y Hy. split; reflexivity.
  Qed.

  Lemma as_text_node s prev d k cur st us lo l0 xs j0 u j1 :
    at_state s prev d k cur st us lo l0 xs ->
    text_loop (S (length t)) t (beq (containing_tag s) s_script || beq (containing_tag s) s_style)
      (containing_tag s) None j0 = Ok (u, j1) ->
    j0 <= S (length t) ->
    (forall c, nth_error t j0 = Some c -> is_blank c = false) \/
      (0 < j0 /\ nth_error t (j0 - 1) = Some cLT) ->
    safe False (fun '(r0, d') => exists x k' xs', r0 = Some (j1, x, s) /\
        at_state s x d' k' (cur ++ [Txt u]) st us lo l0 xs')
      (let* '(id, j, d) := parse_text_node t j0 (containing_tag s) d in
       Ok (Some (j, id, s), update_refs id prev s d)).
  Proof.
    intros A Ht Hj Hpre. pose proof (as_ps _ _ _ _ _ _ _ _ _ _ A) as HS.
    assert (H1 : safe False (fun '(id, j, d') => text_added d d' id u /\ j = j1)
              (parse_text_node t j0 (containing_tag s) d)).
    { unfold parse_text_node. eapply safe_bind; [apply create_node_ok|].
      intros [id d1] [E _]. injection E as -> ->. rewrite Ht. cbn [bind].
      unfold set_pay, get_node. cbn [push_node set_nodes nodes].
      rewrite nth_error_app2, Nat.sub_diag by auto. cbn [nth_error bind safe n_id n_type].
      split; auto. split; auto. unfold push_node, set_nodes. simpl. now rewrite upd_last. }
    assert (Hn : safe False (fun '(id, j, d') => exists u, normP u /\ text_added d d' id u)
              (parse_text_node t j0 (containing_tag s) d)).
    { eapply safe_imp; [apply (parse_text_node_ok False t j0 (containing_tag s) d); auto|].
      intros [[id j] d'] (_ & _ & Hx). exact Hx. }
    eapply safe_bind; [apply safe_and; [exact H1|exact Hn]|].
    intros [[id j] d1] ((B & Ej) & u' & Hu & B').
    assert (Eu : u' = u).
    { destruct (text_added_text _ _ _ _ B) as [E1 _]. destruct (text_added_text _ _ _ _ B') as [E2 _].
      congruence. }
    subst u' j. pose proof (ps_reg _ _ _ _ _ _ _ _ _ HS) as R.
    destruct (ps_new n0 d0 k0 b bot M s prev d k d1 id [] (text_added_tags _ _ _ _ B) HS (text_added_added _ _ _ _ R B)) as
      (k' & S' & X & C & K & _ & Hq & Hx & Hl & _).
    { intros v Hv. destruct (text_added_text _ _ _ _ B) as [E1 _]. rewrite E1 in Hv.
      injection Hv as <-. exact Hu. }
    cbn [safe]. exists id, k', (xs ++ [id]). split; [reflexivity|].
    rewrite <- (app_nil_r us). eapply as_add; eauto.
    apply ks_text; auto.
    unfold text_content. rewrite C. apply (text_added_content d); auto.
  Qed.

  Definition done (v : verdict) : bool * dom -> Prop := fun '(ok, d') =>
    (ok = true /\ exists ts us' k' zs, v = Trees ts us' /\ ParseLoop.PW n0 d0 k0 b d' k' /\
        ext b dS kS d' k' zs us' /\ kforest nS (length (nodes d')) d' k' zs ts) \/
    (ok = false /\ v = TooDeep).

  Lemma ref_loop : forall fuel sf i prev s d k cur st us lo l0 xs r,
    at_state s prev d k cur st us lo l0 xs -> att t i (dropb r) ->
    length t - i < fuel -> length r < sf ->
    safe (read sf base limit cur st us r = BadQuote) (done (read sf base limit cur st us r))
      (parse_loop fuel below t (length bot) i prev s d).
  Proof.
    induction fuel as [|fuel IH]; intros sf i prev s d k cur st us lo l0 xs r A H Hf Hs; [lia|].
    destruct sf as [|sf]; [lia|]. cbn [read]. rewrite skip_blanks_dropb.
    pose proof (dropb_head r) as Hb. pose proof (dropb_len r) as Hr.
    destruct (dropb r) as [|c r1].
    { cbn [parse_loop]. rewrite (att_nil _ _ H). cbn [safe done].
      left. split; auto. destruct A as [P Z L K F (zs0 & X)].
      destruct (zip_close _ _ _ _ _ _ _ Z xs cur L K F) as (zs & E1 & E2).
      exists (close_all cur st), us, k, zs. split; auto. split; [apply (ps_w _ _ _ _ _ _ _ _ _ P)|].
      split; auto. assert (zs = zs0) as ->; auto.
      pose proof (e_new _ _ _ _ _ _ _ X) as E3. rewrite E1 in E3. apply app_inv_head in E3. exact E3. }
    apply att_cons in H. destruct (suf_get _ _ _ _ H) as (G1 & _ & G3 & G2 & _). cbn [length] in Hr.
    cbn [parse_loop]. rewrite G2. unfold parse_step. rewrite G1. cbn [bind].
    (* going on after a text node *)
    assert (Text : forall j0 m, i <= j0 <= S (length t) ->
       (exists j, text_loop (S (length t)) t (beq (containing_tag s) s_script || beq (containing_tag s) s_style)
            (containing_tag s) None j0 = Ok (fst m, j) /\
          att t j (snd m) /\ i < j) ->
       (forall c, nth_error t j0 = Some c -> is_blank c = false) \/
          (0 < j0 /\ nth_error t (j0 - 1) = Some cLT) ->
       safe (read sf base limit (cur ++ [Txt (fst m)]) st us (snd m) = BadQuote)
         (done (read sf base limit (cur ++ [Txt (fst m)]) st us (snd m)))
         (let* '(r0, d1) := (let* '(id, j, d1) := parse_text_node t j0 (containing_tag s) d in
             Ok (Some (j, id, s), update_refs id prev s d1)) in
          match r0 with
          | Some (i0, prev0, stack) => let* i1 := skip_space t i0 in parse_loop fuel below t (length bot) i1 prev0 stack d1
          | None => Ok (false, d1)
          end)).
    { intros j0 m Hj0 (j & E & Hj & Lj) Hpre. eapply safe_bind.
      { eapply (safe_neg False); [|tauto].
        apply (as_text_node s prev d k cur st us lo l0 xs j0 (fst m) j A); auto. lia. }
      intros [r0 d1] (x & k' & xs' & -> & A').
      destruct (att_skip _ _ _ Hj) as (j' & -> & Hj' & Lj'). cbn [bind].
      eapply IH; eauto; [lia|].
      pose proof (att_len _ _ _ Hj). pose proof (suf_len _ _ _ H). cbn [length] in *. lia. }
    destruct (N.eqb_spec c cLT) as [->|Hc].
    2:{ assert (E1 : at_comment (c :: r1) = false).
        { destruct (at_comment (c :: r1)) eqn:E; auto. apply at_comment_lt in E. congruence. }
        assert (E2 : at_end_tag (top_name base st) (c :: r1) = false).
        { destruct (at_end_tag _ _) eqn:E; auto. apply at_end_tag_lt in E. congruence. }
        rewrite E1, E2. cbn [andb].
        apply Text; [lia| |].
        - eapply ref_text; eauto. apply text_or; auto.
        - left. intros c' Hc'. destruct (suf_get _ _ _ _ H) as (_ & _ & _ & _ & Hn). congruence. }
    rewrite (ref_comment t i cLT r1 H eq_refl). cbn [bind].
    destruct (at_comment (cLT :: r1)) eqn:Ec.
    { destruct (ref_skip_comment t i _ H Ec) as (j & -> & Hj & Lj). cbn [bind].
      destruct (att_skip _ _ _ Hj) as (j' & -> & Hj' & Lj'). cbn [bind].
      eapply IH; eauto; [lia|].
      pose proof (att_len _ _ _ Hj). pose proof (suf_len _ _ _ H). cbn [length] in *. lia. }
    rewrite (zip_top _ _ _ _ _ _ (as_zip _ _ _ _ _ _ _ _ _ _ A)). cbn [bind].
    rewrite (ref_end_tag t i cLT r1 _ H eq_refl). cbn [bind].
    destruct (at_end_tag (top_name base st) (cLT :: r1)) eqn:Ee.
    { destruct (ref_gt t i _ H) as (j & Ej & Hj & Lj).
      assert (Lr : length (after_gt (cLT :: r1)) < sf).
      { pose proof (att_len _ _ _ Hj). pose proof (suf_len _ _ _ H). cbn [length] in *. lia. }
      destruct st as [|[[[n bs] ps] before] st'].
      - assert (Es : s = bot).
        { eapply zip_nil, (as_zip _ _ _ _ _ _ _ _ _ _ A). }
        assert (El : (length bot <? length s) = false) by (rewrite Es; apply Nat.ltb_irrefl).
        setoid_rewrite El. rewrite Ej. cbn [bind].
        destruct (att_skip _ _ _ Hj) as (j' & -> & Hj' & Lj'). cbn [bind].
        eapply IH; eauto. lia.
      - destruct (as_close _ _ _ _ _ _ _ _ _ _ _ _ _ _ _ A eq_refl) as (x & s' & lo' & l0' & xs' & Es & Ls & A').
        apply Nat.ltb_lt in Ls. setoid_rewrite Ls. subst s. rewrite Ej. cbn [bind].
        destruct (att_skip _ _ _ Hj) as (j' & -> & Hj' & Lj'). cbn [bind].
        eapply IH; eauto. lia. }
    change (cLT =? cLT)%N with true. cbn [andb].
    pose proof (suf_cons _ _ _ _ H) as H1.
    assert (Ea : is_alpha (current_char t (S i)) || (current_char t (S i) =? cBANG)%N =
                 match r1 with c1 :: _ => is_alpha c1 || (c1 =? cBANG)%N | [] => false end).
    { destruct r1 as [|c1 r2]; [destruct (suf_nil _ _ H1) as (_ & -> & _); reflexivity|].
      destruct (suf_get _ _ _ _ H1) as (_ & -> & _). reflexivity. }
    rewrite Ea. destruct (match r1 with c1 :: _ => _ | [] => false end) eqn:Et.
    2:{ apply Text; [lia| |].
        - eapply ref_text_lt; eauto.
        - right. split; [lia|]. simpl. rewrite Nat.sub_0_r. now apply (suf_get _ _ _ _ H). }
    pose proof (as_ps _ _ _ _ _ _ _ _ _ _ A) as HS.
    pose proof (ps_reg _ _ _ _ _ _ _ _ _ HS) as R.
    rewrite bind_assoc. eapply safe_bind.
    { eapply safe_neg; [apply (ref_tag t (S i) r1 d R H1)|].
      - destruct r1; [discriminate|auto].
      - intros E. rewrite E. reflexivity. }
    intros [[[[id can] tag] j] d1] (bs & ps & r' & E & Hj & Lj & B & TP). rewrite E.
    destruct (elem_added_tag _ _ _ _ _ _ B) as (Htag & Htxt & _).
    destruct (ps_new n0 d0 k0 b bot M s prev d k d1 id [(tag, can)] TP HS (elem_added_added _ _ _ _ _ _ B)) as
      (k' & S' & X & C & K & Hla & Hq & Hx & Hl & Hn0).
    { intros v Hv. congruence. }
    assert (Cx : content (update_refs id prev s d1) id = (Some TDocument, Some tag, None, bs, ps)).
    { rewrite C. eapply elem_added_content; eauto. }
    pose proof (zip_len _ _ _ _ _ _ (as_zip _ _ _ _ _ _ _ _ _ _ A)) as Ls.
    assert (Lr' : length r' < sf).
    { pose proof (att_len _ _ _ Hj). pose proof (suf_len _ _ _ H). cbn [length] in *. lia. }
    destruct can.
    - assert (El : (max_depth <=? length s) = (limit <=? length st)).
      { destruct (Nat.leb_spec max_depth (length s)), (Nat.leb_spec limit (length st)); auto; lia. }
      rewrite El. destruct (Nat.leb_spec limit (length st)) as [Hd|Hd].
      { cbn [bind safe done]. right. auto. }
      cbn [bind]. destruct (att_skip _ _ _ Hj) as (j' & -> & Hj' & Lj'). cbn [bind].
      eapply IH; [eapply as_open; eauto| | |]; auto; [|lia].
      apply ps_push; auto.
      + unfold content in Cx. injection Cx. auto.
      + eapply tag_can; eauto.
      + lia.
    - cbn [bind]. destruct (att_skip _ _ _ Hj) as (j' & -> & Hj' & Lj'). cbn [bind].
      eapply IH; [eapply as_add; eauto| | |]; auto; [|lia].
      apply ks_elem; [lia|auto|]. rewrite K. constructor.
  Qed.

  (** The whole parse. *)
  Lemma ref_parse prev : PSt bot prev dS kS ->
    safe (read (S (length t)) base limit [] [] [] t = BadQuote)
      (done (read (S (length t)) base limit [] [] [] t)) (parse below t prev bot dS).
  Proof.
    intros P. unfold parse.
    destruct (suf_skip t 0 t (suf_zero t)) as (i & -> & Hi & _). cbn [bind].
    eapply ref_loop; [|left; exact Hi|lia|lia].
    constructor; eauto.
    - constructor.
    - rewrite (curk_bot n0 b bot M), app_nil_r. reflexivity.
    - constructor.
    - exists []. apply ext_refl.
  Qed.
End Loop.

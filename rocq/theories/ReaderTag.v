(** * Attributes and start tags agree with the reference reader. *)
From Coq Require Import List NArith Arith Bool Lia.
From Verif Require Import Base TrieModel DomModel ParserModel DomSpec GrammarSpec ReaderSpec
  Lemmas TrieProofs Inv RegProofs ParseSafe GrammarScan GrammarText GrammarTag ReaderScan.
Import ListNotations.
Local Open Scope nat_scope.

Lemma bare_stop c : (is_blank c || (c =? cEQ)%N || (c =? cGT)%N) = negb (bare_char c).
Proof. unfold bare_char. destruct (is_blank c), (c =? cEQ)%N, (c =? cGT)%N; reflexivity. Qed.
Lemma neq_span_in q y : snd (span (fun c => negb (c =? q)%N) y) = [] -> ~ In q y.
Proof.
  intros H X. rewrite (span_app (fun c => negb (c =? q)%N) y), H, app_nil_r in X.
  apply span_all in X. rewrite N.eqb_refl in X. discriminate.
Qed.
Lemma removelast_firstn {A} (l : list A) : removelast l = firstn (pred (length l)) l.
Proof.
  induction l as [|a l IH]; auto. destruct l as [|b l]; auto.
  cbn [removelast length pred firstn] in *. now rewrite IH.
Qed.

Section Tag.
  Context (t : bytes).

  Lemma quoted_not q y : forall i used f, ~ In q y -> suf t i y -> length y <= f ->
    quoted_loop f t q 1 i used = Ok (used + length y, i + length y).
  Proof.
    induction y as [|c y IH]; intros i used f Hq H Hf.
    - destruct (suf_nil _ _ H) as (E & _ & _).
      destruct f; cbn [quoted_loop]; rewrite E; simpl; rewrite !Nat.add_0_r; reflexivity.
    - destruct f as [|f]; [simpl in Hf; lia|].
      rewrite (quoted_step t q c f 1 i used y H) by lia.
      destruct (N.eqb_spec c q) as [->|Hc]; [simpl in Hq; tauto|].
      rewrite IH; [simpl; f_equal; f_equal; lia|simpl in Hq; tauto|eapply suf_cons; eauto|simpl in Hf; lia].
  Qed.

  Lemma ref_prop i r : suf t i r ->
    match prop_at r with
    | None => parse_prop t i = Undef NegLen
    | Some (s, r') => exists j, parse_prop t i = Ok (s, j) /\ suf t j r' /\ i <= j /\
         (forall c, r = c :: tl r -> is_blank c = false -> c <> cGT -> c = cEQ \/ i < j)
    end.
  Proof.
    intros H. destruct r as [|q y].
    { simpl. exists i. destruct (suf_nil _ _ H) as (E & Ec & ->). split.
      - unfold parse_prop. rewrite Ec. cbn [N.eqb orb].
        destruct (ref_scan' t (length t) [] bare_char _ H bare_stop) as [-> _]. simpl.
        rewrite Nat.add_0_r, Nat.sub_diag.
        rewrite (suf_read t _ _ 0 H) by lia. reflexivity.
      - split; auto. split; auto. discriminate. }
    destruct (suf_get _ _ _ _ H) as (_ & Ec & Li & _ & _).
    pose proof (suf_cons _ _ _ _ H) as H1. pose proof (suf_len _ _ _ H) as L. simpl in L.
    unfold parse_prop. rewrite Ec. cbn [prop_at]. unfold is_quote.
    destruct ((q =? cSQ)%N || (q =? cDQ)%N) eqn:Eq.
    - rewrite (quoted_step t q q (length t) 0 i 0 y H) by lia. rewrite N.eqb_refl.
      destruct y as [|c y].
      { rewrite (quoted_not q [] (S i) 1 (length t)); auto; simpl; lia. }
      set (y' := c :: y) in *.
      pose proof (span_stop (fun c => negb (c =? q)%N) y') as St.
      pose proof (span_app (fun c => negb (c =? q)%N) y') as Sa.
      destruct (snd (span (fun c => negb (c =? q)%N) y')) as [|e r'] eqn:Es.
      + rewrite (quoted_not q y' (S i) 1 (length t)); auto; [|now apply neq_span_in|lia].
        cbn [bind]. change (1 + length y') with (S (S (length y))). cbn iota.
        rewrite (suf_read t (S i) y' (length y) H1) by (simpl; lia). cbn [bind].
        exists (S i + length y'). split.
        { f_equal. f_equal. rewrite removelast_firstn. reflexivity. }
        split; [|split; [lia|intros; right; lia]].
        apply (suf_app t (S i) y' []). rewrite app_nil_r. auto.
      + apply negb_false_iff, N.eqb_eq in St. subst e.
        set (a := fst (span (fun c => negb (c =? q)%N) y')) in *.
        assert (Hq : ~ In q a).
        { intros X. apply span_all in X. rewrite N.eqb_refl in X. discriminate. }
        assert (Hl : length y' = length a + S (length r')) by (rewrite Sa, app_length; reflexivity).
        rewrite Sa in H1.
        replace (length t) with (length a + S (length t - length a - 1)) by lia.
        rewrite (quoted_in t q a (S i) 1 r' _ Hq H1). cbn [bind].
        replace (1 + length a + 1) with (S (S (length a))) by lia. cbn iota.
        rewrite (suf_slice t (S i) a (q :: r') H1). cbn [bind].
        eexists. split; [reflexivity|]. split.
        * replace (S i + length a + 1) with (S (S i + length a)) by lia.
          apply suf_cons with (c := q). now apply suf_app in H1.
        * split; [lia|]. intros; right; lia.
    - destruct (ref_scan' t i (q :: y) bare_char _ H bare_stop) as [-> Hs]. cbn [bind].
      pose proof (span_app bare_char (q :: y)) as Sa.
      assert (Hne : is_blank q = false -> q <> cGT -> q = cEQ \/ fst (span bare_char (q :: y)) <> []).
      { intros Hb Hg. cbn [span]. unfold bare_char at 1. rewrite Hb. destruct (N.eqb_spec q cEQ); auto.
        destruct (N.eqb_spec q cGT); [congruence|]. right. discriminate. }
      destruct (span bare_char (q :: y)) as [a r'] eqn:Ea. cbn [fst snd] in *.
      assert (H2 : suf t i (a ++ r')) by now rewrite <- Sa.
      replace (i + length a - i) with (length a) by lia.
      rewrite (suf_slice t i _ _ H2). cbn [bind].
      eexists. split; [reflexivity|]. split; [exact Hs|]. split; [lia|].
      intros c E Hb Hg. cbn [tl] in E. injection E as ->. destruct (Hne Hb Hg); auto.
      right. destruct a; [congruence|simpl; lia].
  Qed.

  Lemma prop_len r s r' : prop_at r = Some (s, r') -> length r' <= length r.
  Proof.
    destruct r as [|q y]; simpl; [intros E; injection E as <- <-; auto|].
    destruct (is_quote q).
    - destruct y as [|c y]; [discriminate|].
      pose proof (span_len (fun c => negb (c =? q)%N) (c :: y)) as L.
      destruct (snd (span _ (c :: y))) as [|e r2]; intros E; injection E as <- <-; simpl in *; lia.
    - intros E. injection E as E. pose proof (span_len bare_char (q :: y)) as L.
      change (span bare_char (q :: y) = (s, r')) in E. rewrite E in L. simpl in L. lia.
  Qed.

  Lemma ref_attrs id d0 : id < length (nodes d0) -> forall sf can i d bs ps r fuel,
    attrs_added d0 d id bs ps -> suf t i (skip_blanks r) -> length r < sf -> length t - i <= fuel ->
    safe (attrs_at sf can bs ps r = None)
      (fun '(can', j, d') => exists bs' ps' r', attrs_at sf can bs ps r = Some (can', bs', ps', r') /\
          att t (S j) r' /\ i <= j /\ attrs_added d0 d' id bs' ps')
      (attr_loop fuel t id can i d).
  Proof.
    intros Hid. induction sf as [|sf IH]; intros can i d bs ps r fuel A H Hs Hf; [lia|].
    cbn [attrs_at]. rewrite skip_blanks_dropb in *. pose proof (dropb_head r) as Hh.
    assert (Lr : length (dropb r) <= length r).
    { destruct (dropb_split r) as (ws & E & _). rewrite E at 2. rewrite app_length. lia. }
    destruct (dropb r) as [|c r1].
    { destruct (suf_nil _ _ H) as (E & _ & Ei).
      destruct fuel; cbn [attr_loop]; rewrite E; cbn [safe]; exists bs, ps, [];
        (split; [reflexivity|]; split; [right; split; [lia|auto]|]; split; auto). }
    destruct (suf_get _ _ _ _ H) as (G1 & _ & G3 & G2 & _).
    destruct fuel as [|fuel]; [lia|]. cbn [attr_loop]. rewrite G2, G1. cbn [bind].
    destruct (N.eqb_spec c cGT) as [->|Hgt].
    { cbn [safe]. exists bs, ps, r1. split; [reflexivity|]. split; [left; eapply suf_cons; eauto|]. split; auto. }
    cbn [length] in Lr.
    destruct (N.eqb_spec c cSLASH) as [->|Hsl].
    { cbn [bind]. pose proof (suf_cons _ _ _ _ H) as H1.
      destruct (suf_skip _ _ _ H1) as (j & -> & Hj & Lj). cbn [bind]. rewrite <- skip_blanks_dropb in Hj.
      eapply safe_imp; [apply (IH false j d bs ps r1); auto; lia|].
      intros [[can' j'] d'] (bs' & ps' & r' & E1 & E2 & E3 & E4). exists bs', ps', r'.
      split; auto. split; auto. split; [lia|auto]. }
    rewrite Hh. cbn [negb].
    pose proof (ref_prop i (c :: r1) H) as P.
    destruct (prop_at (c :: r1)) as [[k r2]|] eqn:Ek; [|rewrite P; cbn [bind safe]; reflexivity].
    destruct P as (j & -> & Hj & Lj & Pj). specialize (Pj c eq_refl Hh Hgt). cbn [bind].
    pose proof (prop_len _ _ _ Ek) as Lk. cbn [length] in Lk.
    assert (Bool : (current_char t j =? cEQ)%N = false -> i < j -> length r2 < sf ->
      safe (attrs_at sf can (bs ++ [k]) ps r2 = None)
       (fun '(can', j, d') => exists bs' ps' r',
          attrs_at sf can (bs ++ [k]) ps r2 = Some (can', bs', ps', r') /\
          att t (S j) r' /\ i <= j /\ attrs_added d0 d' id bs' ps')
      (let* '(can, i0, d1) :=
         (let* d1 := add_bool_property id k d in Ok (can, j, d1)) in
       let* i1 := skip_space t i0 in attr_loop fuel t id can i1 d1)).
    { intros Ec Lij Lr2. rewrite bind_assoc. eapply safe_bind.
      { apply (safe_neg False); [|tauto]. apply add_bool_property_ok; [apply A|]. rewrite (attrs_added_len _ _ _ _ _ A). auto. }
      intros d' Hd'. cbn [bind].
      destruct (suf_skip _ _ _ Hj) as (j' & -> & Hj' & Lj'). cbn [bind]. rewrite <- skip_blanks_dropb in Hj'.
      eapply safe_imp; [apply (IH can j' d' (bs ++ [k]) ps r2); auto; try lia; eapply attrs_added_bool; eauto|].
      intros [[can' j2] d2] (bs' & ps' & r' & E1 & E2 & E3 & E4). exists bs', ps', r'.
      split; auto. split; auto. split; [lia|auto]. }
    destruct r2 as [|e r3].
    - destruct (suf_nil _ _ Hj) as (_ & Ec & Ej). rewrite Ec in *.
      apply Bool; auto; [|simpl; lia]. lia.
    - destruct (suf_get _ _ _ _ Hj) as (_ & Ec & _). rewrite Ec in *.
      destruct (N.eqb_spec e cEQ) as [->|He].
      + pose proof (suf_cons _ _ _ _ Hj) as H3.
        pose proof (ref_prop (S j) r3 H3) as P.
        destruct (prop_at r3) as [[v r4]|] eqn:Ev; [|rewrite P; cbn [bind safe]; reflexivity].
        destruct P as (j4 & -> & Hj4 & Lj4 & _). cbn [bind]. pose proof (prop_len _ _ _ Ev) as Lv.
        rewrite bind_assoc. eapply safe_bind.
        { apply (safe_neg False); [|tauto]. apply add_property_ok; [apply A|]. rewrite (attrs_added_len _ _ _ _ _ A). auto. }
        intros d' Hd'. cbn [bind].
        destruct (suf_skip _ _ _ Hj4) as (j' & -> & Hj' & Lj'). cbn [bind]. rewrite <- skip_blanks_dropb in Hj'.
        cbn [length] in *.
        eapply safe_imp; [apply (IH can j' d' bs (ps ++ [(k, v)]) r4); auto; try lia; eapply attrs_added_prop; eauto|].
        intros [[can' j2] d2] (bs' & ps' & r' & E1 & E2 & E3 & E4). exists bs', ps', r'.
        split; auto. split; auto. split; [lia|auto].
      + assert (Lij : i < j).
        { destruct Pj as [->|]; auto. assert (i = j \/ i < j) as [->|] by lia; auto.
          exfalso. destruct (suf_get _ _ _ _ H) as (_ & Ec' & _). congruence. }
        apply Bool; auto.
        pose proof (suf_len _ _ _ Hj). pose proof (suf_len _ _ _ H). simpl in *. lia.
  Qed.

  (** Where the name ends. *)
  Lemma last_word w c : last (w ++ [c]) 0%N = c.
  Proof. apply List.last_last. Qed.

  Lemma ref_tag i r d : RegInv d -> suf t i r ->
    match r with c :: _ => is_alpha c || (c =? cBANG)%N = true | [] => False end ->
    safe (tag_at r = None)
      (fun '(id, can, tag, j, d') => exists bs ps r',
        tag_at r = Some (tag, bs, ps, can, r') /\
        att t j r' /\ i < j /\ elem_added d d' id tag bs ps /\
        tag_pairs d' = note (tag_pairs d) (tag, can))
      (parse_document_node t i (current_char t i =? cBANG)%N d).
  Proof.
    intros R H Hc. destruct r as [|c r]; [tauto|].
    assert (Hx : (current_char t i =? cBANG)%N = starts [cBANG] (c :: r)).
    { destruct (suf_get _ _ _ _ H) as (_ & -> & _). cbn [starts]. rewrite andb_true_r. apply N.eqb_sym. }
    rewrite Hx. clear Hx. unfold parse_document_node, tag_at.
    set (p := fun c => negb (c =? cGT)%N && negb (is_blank c)).
    eapply safe_bind; [eapply (safe_neg False); [apply create_node_ok|tauto]|].
    intros [id d1] [E _]. injection E as -> ->.
    set (id := length (nodes d)). set (d1 := push_node d (mkNode id TDocument PNone)).
    assert (R1 : RegInv d1) by (apply RegInv_push; auto; discriminate).
    assert (Hp : p c = true).
    { unfold p. unfold is_alpha, is_blank, is_fmt in *. unfold cBANG, cGT, cSP, cTAB, cNL, cCR in *.
      apply orb_true_iff in Hc. rewrite !orb_true_iff, !andb_true_iff, !N.leb_le in Hc.
      rewrite N.eqb_eq in Hc.
      repeat match goal with |- context [(?a =? ?b)%N] => destruct (N.eqb_spec a b); [subst; lia|] end. reflexivity. }
    destruct (ref_scan' t i (c :: r) p (fun c => (c =? cGT)%N || is_blank c) H) as [-> Hs].
    { intros x. unfold p. destruct (x =? cGT)%N, (is_blank x); reflexivity. }
    cbn [bind]. pose proof (span_app p (c :: r)) as Sa. pose proof (span_stop p (c :: r)) as St.
    assert (Wc : fst (span p (c :: r)) <> []).
    { cbn [span]. rewrite Hp. discriminate. }
    set (w := fst (span p (c :: r))) in *. set (r1 := snd (span p (c :: r))) in *.
    replace (i + length w - i) with (length w) by lia.
    destruct (@exists_last _ w Wc) as (w0 & cl & Ew).
    assert (H0 : suf t i ((w0 ++ [cl]) ++ r1)) by (rewrite <- Ew, <- Sa; exact H).
    assert (Lw : length w = S (length w0)) by (rewrite Ew, app_length; simpl; lia).
    (* the slash *)
    assert (Es : (if (current_char t (i + length w) =? cGT)%N then
         match i + length w with
         | O => Undef OobRead
         | S j' => let* p := get_char t j' in Ok (p =? cSLASH)%N
         end
       else Ok false) = Ok (starts [cGT] r1 && (last w 0 =? cSLASH)%N)).
    { assert (Ec : (current_char t (i + length w) =? cGT)%N = starts [cGT] r1).
      { destruct r1 as [|x r1]; [destruct (suf_nil _ _ Hs) as (_ & -> & _); reflexivity|].
        destruct (suf_get _ _ _ _ Hs) as (_ & -> & _). cbn [starts]. rewrite andb_true_r. apply N.eqb_sym. }
      rewrite Ec. destruct (starts [cGT] r1); [|reflexivity]. cbn [andb].
      destruct (suf_last _ _ _ _ _ H0) as [G _]. rewrite <- Ew in G.
      destruct (i + length w) as [|j'] eqn:Ej; [lia|]. simpl in G. rewrite Nat.sub_0_r in G. rewrite G.
      cbn [bind]. rewrite Ew, last_word. reflexivity. }
    rewrite Es. cbn [bind]. clear Es.
    set (single := starts [cGT] r1 && (last w 0 =? cSLASH)%N).
    set (name := if single then removelast w else w).
    assert (En : (let* '(can, size) := (if single then match length w with O => Undef NegLen | S s => Ok (false, s) end
          else Ok (negb (starts [cBANG] (c :: r)), length w)) in
          let* tag := read_slice t i size in Ok (can, tag)) =
        Ok ((if single then false else negb (starts [cBANG] (c :: r))), name)).
    { unfold name. destruct single.
      - rewrite Lw. cbn [bind]. rewrite Ew, removelast_last.
        rewrite (suf_slice t i w0 ([cl] ++ r1)) by (rewrite app_assoc; exact H0). reflexivity.
      - cbn [bind]. assert (H1 : suf t i (w ++ r1)) by (rewrite Ew; exact H0).
        rewrite (suf_slice t i w r1 H1). reflexivity. }
    match goal with |- safe ?N ?Q (bind ?o (fun '(a, b) => bind (read_slice t i b) (fun tag => @?k a tag))) =>
      assert (Eo : bind o (fun '(a, b) => bind (read_slice t i b) (fun tag => k a tag)) =
        bind (bind o (fun '(a, b) => bind (read_slice t i b) (fun tag => Ok (a, tag)))) (fun '(a, tag) => k a tag)) end.
    { destruct single; [destruct (length w)|]; cbn [bind]; try reflexivity;
        (destruct (read_slice t i _); reflexivity). }
    rewrite Eo, En. cbn [bind]. clear Eo En.
    set (can0 := negb (starts [cBANG] (c :: r)) && negb single && negb (is_void name)).
    replace (if is_void name then false else if single then false else negb (starts [cBANG] (c :: r)))
      with can0 by (unfold can0; destruct (is_void name), single, (starts [cBANG] (c :: r)); reflexivity).
    destruct (suf_skip _ _ _ Hs) as (j & -> & Hj & Lj). cbn [bind]. rewrite <- skip_blanks_dropb in Hj.
    eapply safe_bind.
    { eapply safe_neg; [apply safe_eq; eapply (ref_attrs id d1); [|apply attrs_added_refl, R1|exact Hj|exact (Nat.lt_succ_diag_r _)|lia]|].
      - unfold d1, id. simpl. rewrite app_length. simpl. lia.
      - intros E. cbv beta in E |- *. rewrite E. reflexivity. }
    intros [[can2 j3] d2] [(bs & ps & r2 & L1 & L2 & L4 & A) TL]. apply attr_loop_tags in TL.
    cbv beta. rewrite L1.
    destruct A as (R2 & (V1 & V2 & V3 & V4) & X2 & be & pe & G1 & G2 & G3 & G4 & G5 & G6).
    assert (Hnn : nth_error (nodes d2) id = Some (mkNode id TDocument PNone)).
    { rewrite V1. unfold d1, id. simpl. rewrite nth_error_app2, Nat.sub_diag; auto. }
    eapply safe_bind; [eapply (safe_neg False); [|tauto]; apply safe_eq, (set_tag_ok _ id _ d2 _ R2 Hnn)|].
    intros d3 [(R3 & (T1 & T2 & T3) & X3 & B3 & P3 & tg & rr & N3 & E3 & F3 & Z3) TS].
    apply set_tag_pairs in TS; auto.
    assert (TP : tag_pairs d2 = tag_pairs d).
    { unfold tag_pairs. rewrite TL. reflexivity. }
    rewrite TP in TS.
    cbn [safe]. exists bs, ps, r2.
    split; [reflexivity|]. split; [exact L2|].
    split; [lia|]. split; [|exact TS].
    split; [reflexivity|]. split; [auto|]. split.
    { repeat split; [rewrite T1, V2|rewrite T2, V3|rewrite T3, V4]; reflexivity. }
    split. { eapply regs_ext_trans; [|exact X3]. exact X2. }
    split.
    + exists tg, rr. split; [|auto]. rewrite N3, V1. unfold d1. simpl.
      unfold id. now rewrite upd_last.
    + exists be, pe. split; [rewrite B3, G1; reflexivity|].
      split; [rewrite P3, G2; reflexivity|]. split; auto. split; auto.
      assert (Hr : (forall e, In e be -> snd e < length (bool_reg d2)) /\
        (forall e, In e pe -> p_key e < length (key_reg d2) /\
                              p_val e < length (val_reg d2))).
      { apply (attrs_added_in_range d1); auto. }
      destruct Hr as [Hr1 Hr2]. split.
      * rewrite <- G5. apply map_ext_in. intros e He. apply rd_bool_ext; auto.
      * rewrite <- G6. apply map_ext_in. intros e He. destruct (Hr2 e He).
        apply rd_prop_ext; auto.
  Qed.
End Tag.

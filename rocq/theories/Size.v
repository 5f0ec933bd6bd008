(** * The size of a parsed document is bounded by the size of its source. *)
From Coq Require Import List NArith Arith Bool Lia.
From Verif Require Import Base TrieModel DomModel ParserModel DomSpec SizeSpec Lemmas ParseSafe Grow RegProofs.
Import ListNotations.
Local Open Scope nat_scope.

(** Every table grew by at most [c] entries and the text by at most [c] bytes. *)
Record grew (c : nat) (d d' : dom) : Prop := {
  gr_nodes : length (nodes d') <= length (nodes d) + c;
  gr_texts : texts d' <= texts d + c;
  gr_attrs : length (bprops d') + length (props d') <= length (bprops d) + length (props d) + c;
  gr_firsts : length (firsts d') <= length (firsts d) + c;
  gr_pchilds : length (pchilds d') <= length (pchilds d) + c;
  gr_nexts : length (nexts d') <= length (nexts d) + c;
  gr_tags : length (tag_reg d') <= length (tag_reg d) + c;
  gr_names : length (bool_reg d') + length (key_reg d') <= length (bool_reg d) + length (key_reg d) + c;
  gr_vals : length (val_reg d') <= length (val_reg d) + c }.

Lemma grew_refl c d : grew c d d.
Proof. constructor; lia. Qed.
Lemma grew_trans a b c x y z : grew a x y -> grew b y z -> a + b <= c -> grew c x z.
Proof. intros [] [] L. constructor; lia. Qed.
Lemma grew_le a b d d' : grew a d d' -> a <= b -> grew b d d'.
Proof. intros [] L. constructor; lia. Qed.

(** One node was added, not yet linked; the rest grew by at most [c]. *)
Record grew1 (c : nat) (d d' : dom) : Prop := {
  g1_nodes : length (nodes d') = S (length (nodes d));
  g1_texts : texts d' <= texts d + c;
  g1_attrs : length (bprops d') + length (props d') <= length (bprops d) + length (props d) + c;
  g1_firsts : firsts d' = firsts d;
  g1_pchilds : pchilds d' = pchilds d;
  g1_nexts : nexts d' = nexts d;
  g1_tags : length (tag_reg d') <= length (tag_reg d) + c;
  g1_names : length (bool_reg d') + length (key_reg d') <= length (bool_reg d) + length (key_reg d) + c;
  g1_vals : length (val_reg d') <= length (val_reg d) + c }.

(** Only attributes were added. *)
Record grewa (c : nat) (d d' : dom) : Prop := {
  ga_nodes : nodes d' = nodes d;
  ga_attrs : length (bprops d') + length (props d') <= length (bprops d) + length (props d) + c;
  ga_firsts : firsts d' = firsts d;
  ga_pchilds : pchilds d' = pchilds d;
  ga_nexts : nexts d' = nexts d;
  ga_tags : tag_reg d' = tag_reg d;
  ga_tagm : tag_map d' = tag_map d;
  ga_names : length (bool_reg d') + length (key_reg d') <= length (bool_reg d) + length (key_reg d) + c;
  ga_vals : length (val_reg d') <= length (val_reg d) + c }.
Lemma grewa_refl c d : grewa c d d.
Proof. constructor; auto; lia. Qed.
Lemma grewa_trans a b c x y z : grewa a x y -> grewa b y z -> a + b <= c -> grewa c x z.
Proof. intros [] [] L. constructor; try congruence; lia. Qed.
Lemma grewa_le a b d d' : grewa a d d' -> a <= b -> grewa b d d'.
Proof. intros [] L. constructor; auto; lia. Qed.

Lemma okq_safe {A} N (Q : A -> Prop) o : safe N Q o -> okq Q o.
Proof. destruct o; cbn; auto. Qed.

Lemma sum_app l l' : list_sum (l ++ l') = list_sum l + list_sum l'.
Proof. apply list_sum_app. Qed.
Lemma sum_upd (l : list nat) i x : forall y, nth_error l i = Some y -> list_sum (upd l i x) + y = list_sum l + x.
Proof.
  revert i. induction l as [|a l IH]; intros [|i] y H; cbn in H; try discriminate; cbn [upd list_sum fold_right].
  - injection H as ->. fold (list_sum l). lia.
  - specialize (IH i y H). unfold list_sum in IH. lia.
Qed.
Lemma map_upd' {A B} (f : A -> B) l i x : map f (upd l i x) = upd (map f l) i (f x).
Proof. revert i. induction l as [|y l IH]; intros [|i]; cbn; auto. now rewrite IH. Qed.

Lemma sz_add_bool id b d : okq (grewa 1 d) (add_bool_property id b d).
Proof.
  unfold add_bool_property, intern_bool.
  destruct (map_insert b (bool_map d)) as [[[ins bid] m]| | |]; cbn [bind okq]; auto. cbn.
  constructor; cbn; auto; rewrite ?app_length; cbn; try lia. destruct ins; rewrite ?app_length; cbn; lia.
Qed.
Lemma sz_add_prop id k v d : okq (grewa 1 d) (add_property id k v d).
Proof.
  unfold add_property, intern_key, intern_val.
  destruct (map_insert k (key_map d)) as [[[ins kid] m]| | |]; cbn [bind okq]; auto.
  destruct (map_insert v (val_map _)) as [[[ins' vid] m']| | |]; cbn; auto.
  constructor; cbn; auto; rewrite ?app_length; cbn; try lia;
    destruct ins, ins'; rewrite ?app_length; cbn; lia.
Qed.

Section T.
  Context (t : bytes).

  Lemma text_chunk_len i : i <= length t -> okq (fun '(s, j) => i <= j <= length t /\ length s <= j - i /\
      (forall c, nth_error t j = Some c -> c <> cLT -> S (length s) <= j - i \/ is_blank c = true)) (text_chunk t i).
  Proof.
    intros Hi. unfold text_chunk.
    eapply okq_bind; [apply (okq_safe False), safe_scan_until|].
    { intros k ck Hk Hck _. eapply safe_bind; [apply text_continue_ok; lia|]. simpl. auto. }
    { lia. }
    intros j (J1 & J2 & J3 & J4).
    assert (Hj : i <= j <= length t) by lia.
    eapply (okq_bind (fun b : bool => b = false -> 0 < j -> nth_error t (j - 1) <> Some cSP)).
    { destruct (Nat.ltb_spec 0 j); [|cbn; lia].
      eapply okq_bind; [apply (okq_safe False), safe_get_char; lia|]. intros p Hp. cbn.
      destruct (N.eqb_spec p cSP) as [->|Np]; [discriminate|]. intros _ _. congruence. }
    intros trim Tr. destruct trim.
    - destruct (j - i) as [|len] eqn:El; cbn [bind okq]; [exact I|].
      eapply okq_bind; [apply (okq_safe False), safe_read_slice; lia|]. intros s [_ Ls]. cbn.
      split; [lia|]. split; [lia|]. intros c _ _. left. lia.
    - specialize (Tr eq_refl). cbn [bind].
      eapply okq_bind; [apply (okq_safe False), safe_read_slice; lia|]. intros s [_ Ls]. cbn.
      split; [lia|]. split; [lia|]. intros c Hc Nc. right. specialize (J4 c Hc).
      unfold text_continue in J4. unfold is_blank. destruct (is_fmt c) eqn:Ef; [now rewrite orb_true_r|]. cbn [negb] in J4.
      destruct (N.eqb_spec c cSP) as [->|Ns]; [reflexivity|]. cbn [negb bind] in J4.
      apply N.eqb_neq in Nc. rewrite Nc in J4. discriminate.
  Qed.

  Lemma text_loop_len special tag i0 fuel : forall (raw : option bytes) i,
    i0 <= i ->
    match raw with
    | Some r => length r <= Nat.min i (length t) - i0 /\
        (forall c, nth_error t i = Some c -> c <> cLT -> S (length r) <= i - i0)
    | None => True
    end ->
    okq (fun '(s, j) => i <= j /\ length s <= Nat.min j (length t) - i0) (text_loop fuel t special tag raw i).
  Proof.
    assert (Fin : forall (raw : option bytes) i, i0 <= i -> match raw with
        | Some r => length r <= Nat.min i (length t) - i0 /\
            (forall c, nth_error t i = Some c -> c <> cLT -> S (length r) <= i - i0)
        | None => True end ->
        okq (fun '(s, j) => i <= j /\ length s <= Nat.min j (length t) - i0) (Ok (match raw with Some r => r | None => [] end, i))).
    { intros raw i L H. cbn. split; [lia|]. destruct raw; cbn; [|lia]. destruct H. lia. }
    induction fuel as [|f IH]; intros raw i L H; cbn [text_loop]; destruct (Nat.ltb_spec i (length t)) as [Hi|Hi]; try (now apply Fin).
    - eapply okq_bind; [apply okq_any|]. intros c _. eapply okq_bind; [apply okq_any|]. intros [] _; [now apply Fin|exact I].
    - eapply okq_bind; [apply (okq_safe False), safe_get_char; lia|]. intros c Hc.
      eapply (okq_bind (fun b : bool => b = false -> c = cLT -> is_comment t i = Ok true)).
      { destruct (N.eqb_spec c cLT) as [->|]; [|cbn; congruence].
        destruct (is_comment_det t i) as (b & E & _). rewrite E. cbn [bind].
        destruct b; cbn [negb]; [|cbn; discriminate]. destruct special; [|cbn; auto].
        eapply okq_imp; [apply okq_any|]. auto. }
      intros [] Hs; [now apply Fin|]. specialize (Hs eq_refl).
      eapply (okq_bind (fun b : bool => if b then i + 4 < length t else c <> cLT)).
      { destruct (N.eqb_spec c cLT) as [->|]; [|cbn; auto]. destruct (is_comment_det t i) as (b & E & Hb).
        rewrite (Hs eq_refl) in E. injection E as <-. rewrite (Hs eq_refl). cbn. auto. }
      intros cm Hcm.
      eapply (okq_bind (fun '(raw', j) => i <= j /\ match raw' with
          | Some r => length r <= Nat.min j (length t) - i0 /\
              (forall c, nth_error t j = Some c -> c <> cLT -> S (length r) <= j - i0 \/ is_blank c = true)
          | None => True end)).
      { destruct cm.
        - eapply okq_bind; [apply (okq_safe False), skip_comment_ok; exact Hcm|]. intros j [J1 J2]. cbn.
          split; [lia|]. destruct raw as [r|]; [|exact I]. destruct H as [H _]. split; [lia|]. intros. left. lia.
        - eapply okq_bind; [apply text_chunk_len; lia|]. intros [s j] (J1 & J2 & J3). cbn. split; [lia|].
          destruct raw as [r|].
          + destruct H as [H1 H2]. specialize (H2 c Hc Hcm). rewrite app_length. cbn [length]. split; [lia|].
            intros c' Hc' Nc'. destruct (J3 c' Hc' Nc'); [left; lia|now right].
          + split; [lia|]. intros c' Hc' Nc'. destruct (J3 c' Hc' Nc'); [left; lia|now right]. }
      intros [raw' j] [J1 J2].
      eapply okq_bind; [apply (okq_safe False), safe_skip_space|]. intros j' (K1 & K2 & _ & K4).
      eapply okq_imp; [apply IH; [lia|]|].
      { destruct raw' as [r|]; [|exact I]. destruct J2 as [J2 J3]. split; [lia|]. intros c' Hc' Nc'.
        destruct (Nat.eq_dec j j') as [<-|Ne].
        - destruct (J3 c' Hc' Nc') as [|B]; [assumption|]. rewrite (K4 c' Hc') in B. discriminate.
        - lia. }
      intros [s j'']. lia.
  Qed.

  Lemma sz_text_node i tag d : okq (fun '(id, j, d') => i <= j /\ grew1 (Nat.min j (length t) - i) d d') (parse_text_node t i tag d).
  Proof.
    unfold parse_text_node. unfold create_node. destruct (_ <=? _)%N; [|exact I]. cbn [bind].
    eapply okq_bind; [apply (text_loop_len _ _ i); [lia|exact I]|]. intros [s j] [J1 J2].
    unfold set_pay, get_node, push_node. cbn [nodes set_nodes]. rewrite nth_error_app2, Nat.sub_diag by auto. cbn.
    split; [exact J1|]. constructor; cbn; try lia; auto.
    - rewrite upd_length, app_length. cbn. lia.
    - unfold texts. cbn. rewrite upd_last, !map_app, !sum_app. cbn. lia.
  Qed.

  Lemma sz_attr_loop id fuel : forall can i d, i <= length t ->
    okq (fun '(can', j, d') => i <= j <= length t /\ grewa (j - i) d d') (attr_loop fuel t id can i d).
  Proof.
    assert (Fin : forall (can : bool) i d, i <= length t -> okq (fun '(can', j, d') => i <= j <= length t /\ grewa (j - i) d d') (Ok (can, i, d))).
    { intros. cbn. split; [lia|]. apply grewa_refl. }
    induction fuel as [|f IH]; intros can i d Hi; cbn [attr_loop]; destruct (Nat.ltb_spec i (length t)) as [L|L]; try (now apply Fin).
    - eapply okq_bind; [apply okq_any|]. intros c _. destruct (c =? cGT)%N; [now apply Fin|exact I].
    - eapply okq_bind; [apply (okq_safe False), safe_get_char; lia|]. intros c Hc.
      destruct (N.eqb_spec c cGT) as [|Hg]; [now apply Fin|].
      eapply (okq_bind (fun '(can', j, d') => i <= j <= length t /\ grewa (j - i) d d')).
      { destruct (N.eqb_spec c cSLASH); [cbn; split; [lia|apply grewa_refl]|].
        destruct (is_blank c) eqn:Eb; cbn [negb]; [cbn; split; [lia|apply grewa_refl]|].
        eapply okq_bind; [apply (okq_safe (ends_quote t)), parse_prop_ok; lia|]. intros [key j] [J1 J2]. specialize (J2 c Hc Eb Hg).
        unfold current_char. destruct (nth_error t j) as [cj|] eqn:Ej.
        - destruct (N.eqb_spec cj cEQ) as [->|Hne].
          + apply nth_lt in Ej. eapply okq_bind; [apply (okq_safe (ends_quote t)), parse_prop_ok; lia|].
            intros [v j'] [K1 _]. eapply okq_bind; [apply sz_add_prop|]. intros d' G. cbn.
            split; [lia|]. apply (grewa_le 1); [exact G|lia].
          + eapply okq_bind; [apply sz_add_bool|]. intros d' G. cbn. split; [lia|].
            apply (grewa_le 1); [exact G|]. destruct J2 as [->|]; [|lia].
            destruct (Nat.eq_dec i j) as [->|]; [|lia]. rewrite Hc in Ej. congruence.
        - change (0 =? cEQ)%N with false. cbv iota.
          eapply okq_bind; [apply sz_add_bool|]. intros d' G. cbn. split; [lia|].
          apply (grewa_le 1); [exact G|]. apply nth_error_None in Ej. lia. }
      intros [[can' j] d'] (J1 & J3).
      eapply okq_bind; [apply (okq_safe False), safe_skip_space|]. intros j' (K1 & K2 & _ & _).
      eapply okq_imp; [apply IH; lia|]. intros [[can'' j''] d''] (M1 & M3). split; [lia|].
      eapply grewa_trans; [exact J3|exact M3|lia].
  Qed.

  Lemma sz_document_node i ex d : i < length t ->
    okq (fun '(id, can, tag, j, d') => i < j <= S (length t) /\ grew1 (Nat.min j (length t) - i) d d') (parse_document_node t i ex d).
  Proof.
    intros Hi. unfold parse_document_node, create_node. destruct (_ <=? _)%N; [|exact I]. cbn [bind].
    eapply okq_bind; [apply (okq_safe False), safe_scan|]. intros j (J1 & J2 & _ & _).
    eapply okq_bind; [apply okq_any|]. intros slash _.
    eapply okq_bind; [apply okq_any|]. intros [can size] _.
    eapply okq_bind; [apply okq_any|]. intros tag _.
    eapply okq_bind; [apply (okq_safe False), safe_skip_space|]. intros j2 (K1 & K2 & _ & _).
    eapply okq_bind; [apply sz_attr_loop; lia|]. intros [[can2 j3] d2] (L1 & L3).
    unfold set_tag. destruct (map_insert tag (tag_map d2)) as [[[ins tid] m]| | |]; cbn [bind okq]; auto.
    destruct L3 as [L2 A F P Q T TM NM V].
    unfold set_pay, get_node. cbn [nodes set_tags]. rewrite L2. unfold push_node. cbn [nodes set_nodes].
    rewrite nth_error_app2, Nat.sub_diag by auto. cbn [bind okq n_id n_type].
    assert (HM : j3 - i <= Nat.min (S j3) (length t) - i /\ 1 <= Nat.min (S j3) (length t) - i) by lia.
    split; [lia|]. revert HM. generalize (Nat.min (S j3) (length t) - i). intros M HM.
    constructor; cbn in *; try lia; auto.
    - rewrite upd_length, app_length. cbn. lia.
    - unfold texts in *. cbn in *. rewrite upd_last, !map_app, !sum_app in *. cbn. lia.
    - destruct ins; rewrite ?app_length, T; cbn; lia.
  Qed.

  Lemma grew_refs new prev s d d' c : grew1 c d d' -> 1 <= c -> grew c d (update_refs new prev s d').
  Proof.
    intros [A B C D E G H I J] L. unfold update_refs. destruct (_ && _); [|constructor; rewrite ?D, ?E, ?G; lia].
    destruct s as [|[par tag] s]; [|destruct (par =? prev)]; constructor; cbn; unfold texts in *; cbn; auto;
      rewrite ?app_length, ?D, ?E, ?G; cbn; lia.
  Qed.
  Lemma grew1_le a b d d' : grew1 a d d' -> a <= b -> grew1 b d d'.
  Proof. intros [] L. constructor; auto; lia. Qed.

  Lemma sz_step below start i prev stack d : i < length t -> (forall c, nth_error t i = Some c -> is_blank c = false) ->
    okq (fun '(r, d') => match r with
        | Some (j, _, _) => i < j <= S (length t) /\ grew (Nat.min j (length t) - i) d d'
        | None => grew (length t - i) d d' end) (parse_step below t start i prev stack d).
  Proof.
    intros Hi Hb. unfold parse_step.
    eapply okq_bind; [apply (okq_safe False), safe_get_char; lia|]. intros c Hc. specialize (Hb c Hc).
    assert (TN : forall i', (i' = i /\ c <> cLT) \/ (i' = S i /\ c = cLT) ->
      okq (fun '(r, d') => match r with
        | Some (j, _, _) => i < j <= S (length t) /\ grew (Nat.min j (length t) - i) d d'
        | None => grew (length t - i) d d' end)
       (let* '(id, j, d1) := parse_text_node t i' (containing_tag stack) d in
        Ok (Some (j, id, stack), update_refs id prev stack d1))).
    { intros i' Hi'.
      assert (Hp : okq (fun '(id, j, d') => i < j <= S (length t)) (parse_text_node t i' (containing_tag stack) d)).
      { eapply okq_imp; [apply (okq_safe False), parse_text_node_ok|].
        - destruct Hi' as [[-> Nc]|[-> ->]]; [left; congruence|]. right. split; [lia|]. now replace (S i - 1) with i by lia.
        - lia.
        - intros [[id j] d'] ((A & B) & C & _). destruct Hi' as [[-> Nc]|[-> _]]; [specialize (C c Hc Nc)|]; lia. }
      pose proof (sz_text_node i' (containing_tag stack) d) as Hs.
      destruct (parse_text_node t i' _ d) as [[[id j] d']| | |]; cbn in *; auto. destruct Hs as [_ Hs]. split; [exact Hp|].
      apply grew_refs; [|lia]. eapply grew1_le; [exact Hs|lia]. }
    destruct (N.eqb_spec c cLT) as [->|Nc]; [|apply TN; left; auto].
    destruct (is_comment_det t i) as (cm & Ecm & Hcm). rewrite Ecm. cbn [bind]. destruct cm.
    { eapply okq_bind; [apply (okq_safe False), skip_comment_ok; auto|]. intros j [J1 J2]. cbn. split; [lia|apply grew_refl]. }
    eapply okq_bind; [apply okq_any|]. intros tt _. eapply okq_bind; [apply okq_any|]. intros [] _.
    { destruct (start <? length stack); [destruct stack as [|[id tag] stack]|];
        (eapply okq_bind; [apply (okq_safe False), safe_scan|]; intros j (J1 & J2 & _); cbn; split; [lia|apply grew_refl]). }
    destruct (is_alpha (current_char t (S i)) || (current_char t (S i) =? cBANG)%N) eqn:Ea; [|apply TN; now right].
    assert (Hn : S i < length t).
    { unfold current_char in Ea. destruct (nth_error t (S i)) eqn:E; [now apply nth_lt in E|]. discriminate Ea. }
    eapply (okq_bind (fun '(id, can, tag, j, d') => S i < j <= S (length t) /\ grew1 (Nat.min j (length t) - i) d d')).
    { eapply okq_imp; [apply sz_document_node; exact Hn|]. intros [[[[id can] tag] j] d'] [J G]. split; [lia|]. eapply grew1_le; [exact G|lia]. }
    intros [[[[id can] tag] j] d'] [J G].
    assert (GR : grew (Nat.min j (length t) - i) d (update_refs id prev stack d')) by (apply grew_refs; [exact G|lia]).
    destruct can; [destruct (max_depth <=? length stack)|]; cbn; [|split; [lia|exact GR]..].
    eapply grew_le; [exact GR|lia].
  Qed.

  Lemma sz_loop below start fuel : forall i prev stack d, i <= length t + 1 ->
    (forall c, nth_error t i = Some c -> is_blank c = false) ->
    okq (fun '(_, d') => grew (length t - i) d d') (parse_loop fuel below t start i prev stack d).
  Proof.
    induction fuel as [|f IH]; intros i prev stack d Hi Hb; cbn [parse_loop]; destruct (Nat.ltb_spec i (length t)) as [L|L];
      try exact I; try (apply grew_refl).
    eapply okq_bind; [apply sz_step; [exact L|exact Hb]|]. intros [[[[j prev'] stack']|] d'] H; [|exact H].
    destruct H as [J G].
    eapply okq_bind; [apply (okq_safe False), safe_skip_space|]. intros j' (K1 & K2 & _ & K4).
    eapply okq_imp; [apply IH; [lia|exact K4]|]. intros [r d''] G'. eapply grew_trans; [exact G|exact G'|lia].
  Qed.

  Lemma sz_parse below prev stack d : okq (fun '(_, d') => grew (length t) d d') (parse below t prev stack d).
  Proof.
    unfold parse. eapply okq_bind; [apply (okq_safe False), safe_skip_space|]. intros j (K1 & K2 & _ & K4).
    eapply okq_imp; [apply sz_loop; [lia|exact K4]|]. intros [r d'] G. eapply grew_le; [exact G|lia].
  Qed.
End T.

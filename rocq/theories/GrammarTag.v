(** * Exact results of parsing tags. *)
From Coq Require Import List NArith Arith Bool Lia.
From Verif Require Import Base TrieModel DomModel ParserModel DomSpec GrammarSpec
  Lemmas TrieProofs Inv RegProofs ParseSafe GrammarScan.
Import ListNotations.
Local Open Scope nat_scope.

Lemma blank_not c x : is_blank c = true -> is_blank x = false -> (c =? x)%N = false.
Proof. intros H1 H2. destruct (N.eqb_spec c x); auto. congruence. Qed.

(** ** The tag registry *)
Definition tag_pairs (d : dom) : list (bytes * bool) :=
  map (fun r => (t_name r, t_paired r)) (tag_reg d).
Definition note (l : list (bytes * bool)) (e : bytes * bool) : list (bytes * bool) :=
  if existsb (fun x => beq (fst e) (fst x)) (tl l) then l else l ++ [e].
Definition notes (l evs : list (bytes * bool)) : list (bytes * bool) := fold_left note evs l.

Lemma tag_pairs_names d : map fst (tag_pairs d) = map t_name (tag_reg d).
Proof. unfold tag_pairs. rewrite map_map. reflexivity. Qed.
Lemma noted_in n (l : list (bytes * bool)) :
  existsb (fun x => beq n (fst x)) l = true <-> In n (map fst l).
Proof.
  rewrite existsb_exists, in_map_iff. split.
  - intros (x & Hx & B). apply beq_eq in B. eauto.
  - intros (x & <- & Hx). exists x. split; auto. apply beq_refl.
Qed.
Lemma set_tag_pairs tag id p d d' : RegInv d -> set_tag tag id p d = Ok d' ->
  tag_pairs d' = note (tag_pairs d) (tag, p).
Proof.
  intros R. unfold set_tag. pose proof (intern_reg tag _ _ (ri_tag _ R)) as H.
  destruct (map_insert tag (tag_map d)) as [[[ins t] m]|u|j|]; cbn [bind]; try discriminate.
  simpl in H. destruct H as (H1 & H2 & H3 & H4).
  unfold set_pay, get_node. cbn [set_tags nodes].
  destruct (nth_error (nodes d) id) as [x|]; cbn [bind]; try discriminate.
  intros E. injection E as <-. unfold tag_pairs, note. cbn [set_nodes set_tags tag_reg].
  assert (T : tl (map (fun r => (t_name r, t_paired r)) (tag_reg d)) =
              map (fun r => (t_name r, t_paired r)) (tl (tag_reg d))) by (destruct (tag_reg d); reflexivity).
  destruct ins.
  - rewrite map_app. cbn [map fst].
    destruct (existsb _ _) eqn:X; [|reflexivity]. exfalso. apply noted_in in X.
    apply H4; auto. rewrite T, map_map in X. destruct (tag_reg d); exact X.
  - destruct (existsb _ _) eqn:X; [reflexivity|]. exfalso.
    assert (In tag (map fst (tl (map (fun r => (t_name r, t_paired r)) (tag_reg d))))).
    { rewrite T, map_map. destruct (tag_reg d) as [|r0 reg]; simpl in H2 |- *.
      - destruct t; discriminate.
      - destruct t as [|t]; [congruence|]. simpl in H2. eapply nth_error_In; eauto. }
    apply noted_in in H. cbn [fst] in X. congruence.
Qed.
Lemma add_bool_tags id b d d' : add_bool_property id b d = Ok d' -> tag_reg d' = tag_reg d.
Proof.
  unfold add_bool_property, intern_bool. intros H.
  destruct (map_insert b (bool_map d)) as [[[ins t] m]|u|j|]; cbn [bind] in H; try discriminate.
  injection H as <-. reflexivity.
Qed.
Lemma add_prop_tags id k v d d' : add_property id k v d = Ok d' -> tag_reg d' = tag_reg d.
Proof.
  unfold add_property, intern_key, intern_val. intros H.
  destruct (map_insert k (key_map d)) as [[[ins t] m]|u|j|]; cbn [bind] in H; try discriminate.
  cbn in H.
  destruct (map_insert v _) as [[[ins' t'] m']|u|j|]; cbn [bind] in H; try discriminate.
  injection H as <-. reflexivity.
Qed.
Lemma attr_loop_tags t id : forall fuel can i d can' j d',
  attr_loop fuel t id can i d = Ok (can', j, d') -> tag_reg d' = tag_reg d.
Proof.
  induction fuel as [|f IH]; intros can i d can' j d'; cbn [attr_loop];
    (destruct (i <? length t); [|intros E; injection E as <- <- <-; reflexivity]);
    destruct (get_char t i) as [c|u|jj|]; cbn [bind]; try discriminate;
    (destruct (c =? cGT)%N; [intros E; injection E as <- <- <-; reflexivity|]); try discriminate.
  intros H.
  match type of H with bind ?o _ = _ => destruct o as [[[c1 i1] d1]|u|jj|] eqn:E end; cbn [bind] in H; try discriminate.
  destruct (skip_space t i1) as [i2|u|jj|]; cbn [bind] in H; try discriminate.
  apply IH in H. rewrite H. clear H IH.
  destruct (c =? cSLASH)%N; [injection E as <- <- <-; reflexivity|].
  destruct (negb (is_blank c)); [|injection E as <- <- <-; reflexivity].
  destruct (parse_prop t i) as [[key i3]|u|jj|]; cbn [bind] in E; try discriminate.
  destruct (current_char t i3 =? cEQ)%N.
  - destruct (parse_prop t (S i3)) as [[v i4]|u|jj|]; cbn [bind] in E; try discriminate.
    destruct (add_property id key v d) as [d2|u|jj|] eqn:A; cbn [bind] in E; try discriminate.
    injection E as <- <- <-. eapply add_prop_tags; eauto.
  - destruct (add_bool_property id key d) as [d2|u|jj|] eqn:A; cbn [bind] in E; try discriminate.
    injection E as <- <- <-. eapply add_bool_tags; eauto.
Qed.
Lemma safe_eq {A} N (Q : A -> Prop) (o : outcome A) :
  safe N Q o -> safe N (fun a => Q a /\ o = Ok a) o.
Proof. destruct o as [a|u|j|]; simpl; auto. Qed.

Section Tag.
  Context (t : bytes).

  Definition ends_word (r : bytes) : Prop :=
    match r with [] => True | c :: _ => is_blank c = true \/ c = cEQ \/ c = cGT end.

  Lemma bare_spec c : bare_char c = true ->
    is_blank c = false /\ c <> cEQ /\ c <> cGT.
  Proof.
    unfold bare_char. intros H. apply andb_true_iff in H as [H H3].
    apply andb_true_iff in H as [H1 H2].
    apply negb_true_iff in H1, H2, H3. apply N.eqb_neq in H2, H3. auto.
  Qed.
  Lemma name_spec c : name_char c = true ->
    is_blank c = false /\ c <> cGT /\ c <> cSLASH.
  Proof.
    unfold name_char. intros H. apply andb_true_iff in H as [H H3].
    apply andb_true_iff in H as [H1 H2].
    apply negb_true_iff in H1, H2, H3. apply N.eqb_neq in H2, H3. auto.
  Qed.

  Lemma prop_bare s r i : s <> [] -> all bare_char s -> no_quote_first s ->
    suf t i (s ++ r) -> ends_word r -> parse_prop t i = Ok (s, i + length s).
  Proof.
    intros Hs Ha Hq H Hr. unfold parse_prop. destruct s as [|c s]; [congruence|].
    destruct (suf_get t i c (s ++ r) H) as (_ & -> & _).
    specialize (Hq c s eq_refl). unfold is_quote in Hq. rewrite Hq.
    rewrite (suf_scan t i (c :: s) r) by
      (auto; try (intros x Hx; destruct (bare_spec x (Ha x Hx)) as (-> & ? & ?);
         destruct (N.eqb_spec x cEQ); [congruence|]; destruct (N.eqb_spec x cGT); [congruence|]; reflexivity);
       destruct r as [|x r']; auto; destruct Hr as [-> |[-> | ->]]; auto).
    cbn [bind]. replace (i + length (c :: s) - i) with (length (c :: s)) by lia.
    rewrite (suf_slice t i (c :: s) r H). reflexivity.
  Qed.

  (** Inside the quotes. *)
  Lemma quoted_step q c f count i used r : suf t i (c :: r) -> count < 2 ->
    quoted_loop (S f) t q count i used
    = quoted_loop f t q (if (c =? q)%N then S count else count) (S i) (S used).
  Proof.
    intros H Hc. cbn [quoted_loop]. destruct (suf_get _ _ _ _ H) as (-> & _ & _ & -> & _).
    cbn [bind]. destruct (Nat.ltb_spec count 2); [reflexivity|lia].
  Qed.
  Lemma quoted_done q f i used r : suf t i r -> quoted_loop f t q 2 i used = Ok (used, i).
  Proof.
    intros H. destruct r as [|c r].
    - destruct (suf_nil _ _ H) as (E & _). destruct f; cbn [quoted_loop]; now rewrite E.
    - destruct (suf_get _ _ _ _ H) as (E & _ & _ & E2 & _).
      destruct f; cbn [quoted_loop]; rewrite E2, E; reflexivity.
  Qed.
  Lemma quoted_in q s : forall i used r f, ~ In q s -> suf t i (s ++ q :: r) ->
    quoted_loop (length s + S f) t q 1 i used = Ok (used + length s + 1, i + length s + 1).
  Proof.
    induction s as [|c s IH]; intros i used r f Hq H.
    - simpl length. cbn [Nat.add]. simpl in H. rewrite (quoted_step q q f 1 i used r H) by lia.
      rewrite N.eqb_refl. rewrite (quoted_done q f (S i) (S used) r) by (eapply suf_cons; eauto).
      f_equal. f_equal; lia.
    - cbn [length Nat.add app] in *. rewrite (quoted_step q c _ 1 i used (s ++ q :: r) H) by lia.
      destruct (N.eqb_spec c q) as [->|]; [exfalso; apply Hq; simpl; auto|].
      rewrite (IH (S i) (S used) r f).
      + f_equal. f_equal; lia.
      + intros Hin. apply Hq. simpl; auto.
      + eapply suf_cons; eauto.
  Qed.
  Lemma prop_quoted q s r i : quoted_ok q s -> suf t i ((q :: s ++ [q]) ++ r) ->
    parse_prop t i = Ok (s, i + length (q :: s ++ [q])).
  Proof.
    intros [Hq Hs] H. unfold parse_prop.
    destruct (suf_get t i q _ H) as (_ & -> & _).
    unfold is_quote in Hq. rewrite Hq.
    pose proof (suf_len _ _ _ H) as L. rewrite app_length in L. cbn [length] in L.
    rewrite app_length in L. simpl in L.
    replace (S (length t)) with (S (length s + S (length t - length s - 1))) by lia.
    simpl in H. rewrite <- app_assoc in H. simpl in H.
    rewrite (quoted_step q q _ 0 i 0 _ H) by lia. rewrite N.eqb_refl.
    rewrite (quoted_in q s (S i) 1 r) by (auto; eapply suf_cons; eauto). cbn [bind].
    replace (1 + length s + 1) with (S (S (length s))) by lia.
    rewrite (suf_slice t (S i) s (q :: r)) by (eapply suf_cons; eauto). cbn [bind].
    f_equal. f_equal. simpl. rewrite app_length. simpl. lia.
  Qed.

  Lemma prop_key w r i : key_ok w -> suf t i (word_src w ++ r) ->
    (forall s, w = Bare s -> ends_word r) ->
    parse_prop t i = Ok (word_val w, i + length (word_src w)).
  Proof.
    destruct w as [s|q s]; simpl; intros Hk H Hr.
    - destruct Hk as (A & B & _ & C). apply (prop_bare s r i); eauto.
    - apply (prop_quoted q s r i); auto.
  Qed.
  Lemma prop_value w r i : value_ok w -> suf t i (word_src w ++ r) ->
    (forall s, w = Bare s -> ends_word r) ->
    parse_prop t i = Ok (word_val w, i + length (word_src w)).
  Proof.
    destruct w as [s|q s]; simpl; intros Hk H Hr.
    - destruct Hk as (A & B & C). apply (prop_bare s r i); eauto.
    - apply (prop_quoted q s r i); auto.
  Qed.

  (** What follows the attributes. *)
  Definition tag_tail (ws : bytes) (sl : bool) (r : bytes) : bytes :=
    ws ++ (if sl then [cSLASH] else []) ++ cGT :: r.

  Lemma rest_head ats ws sl r : tag_rest_ok ats ws sl ->
    exists c x, attrs_src ats ++ tag_tail ws sl r = c :: x /\
      (is_blank c = true \/ c = cGT \/ (c = cSLASH /\ ats = [] /\ ws = [] /\ sl = true)).
  Proof.
    intros (Ha & Hb & _). destruct ats as [|a ats].
    - destruct ws as [|c ws].
      + destruct sl; simpl; do 2 eexists; split; try reflexivity; auto 6.
      + simpl. do 2 eexists. split; [reflexivity|]. left. apply Hb. simpl; auto.
    - destruct (Ha a (or_introl eq_refl)) as (H1 & H2 & _).
      destruct a as [w k v]. simpl in *. destruct w as [|c w]; [congruence|].
      unfold attr_src. simpl. do 2 eexists. split; [reflexivity|]. left. apply H2. simpl; auto.
  Qed.

  Lemma rest_tail a ats ws sl : tag_rest_ok (a :: ats) ws sl -> tag_rest_ok ats ws sl.
  Proof.
    intros (A & B & C). split; [intros; apply A; simpl; auto|]. split; auto.
    intros E (l' & a' & -> & s & Es). apply C; auto. exists (a :: l'), a'. split; eauto.
  Qed.

  Lemma rest_bare a ats ws sl r s : tag_rest_ok (a :: ats) ws sl ->
    match a_val a with Some v => v | None => a_key a end = Bare s ->
    ends_word (attrs_src ats ++ tag_tail ws sl r).
  Proof.
    intros H E. destruct (rest_head ats ws sl r (rest_tail _ _ _ _ H)) as (c & x & -> & D).
    simpl. destruct D as [D|[D|(-> & -> & -> & ->)]]; auto.
    exfalso. destruct H as (_ & _ & C). apply C; auto. exists [], a. split; eauto.
  Qed.

  Lemma rest_not_eq ats ws sl r i : tag_rest_ok ats ws sl ->
    suf t i (attrs_src ats ++ tag_tail ws sl r) -> (current_char t i =? cEQ)%N = false.
  Proof.
    intros H S. destruct (rest_head ats ws sl r H) as (c & x & E & D). rewrite E in S.
    destruct (suf_get _ _ _ _ S) as (_ & -> & _).
    destruct D as [D|[->|(-> & _)]]; auto. now apply blank_not.
  Qed.

  Lemma key_head w : key_ok w -> exists c x, word_src w = c :: x /\ is_blank c = false /\
    c <> cGT /\ c <> cSLASH.
  Proof.
    destruct w as [[|c s]|q s]; simpl.
    - intros [H _]. congruence.
    - intros (_ & A & B & _). exists c, s. destruct (bare_spec c (A c (or_introl eq_refl))) as (? & ? & ?).
      repeat split; auto.
    - intros [A _]. exists q, (s ++ [q]). unfold is_quote in A. apply orb_true_iff in A.
      destruct A as [A|A]; apply N.eqb_eq in A; subst; repeat split; discriminate.
  Qed.

  Lemma attr_loop_exact id ws sl r ats : forall can i d d0 bs ps fuel,
    attrs_added d0 d id bs ps -> id < length (nodes d0) ->
    tag_rest_ok ats ws sl -> suf t i (dropb (attrs_src ats ++ tag_tail ws sl r)) ->
    length t - i <= fuel ->
    safe False (fun '(can', j, d') => can' = can && negb sl /\ suf t j (cGT :: r) /\ i <= j /\
        attrs_added d0 d' id (bs ++ bools_of ats) (ps ++ props_of ats))
      (attr_loop fuel t id can i d).
  Proof.
    induction ats as [|a ats IH]; intros can i d d0 bs ps fuel A Hid Hok H Hf.
    - simpl in H |- *. rewrite !app_nil_r. unfold tag_tail in H.
      rewrite dropb_app in H by apply Hok. destruct sl.
      + simpl in H. destruct (suf_get _ _ _ _ H) as (G1 & _ & G3 & G2 & _).
        destruct fuel as [|f]; [lia|]. cbn [attr_loop]. rewrite G2, G1. cbn [bind].
        change (cSLASH =? cGT)%N with false. change (cSLASH =? cSLASH)%N with true.
        cbn [bind]. apply suf_cons in H.
        destruct (suf_skip _ _ _ H) as (j & Ej & Hj & Lj). rewrite Ej. cbn [bind].
        simpl in Hj. destruct (suf_get _ _ _ _ Hj) as (K1 & _ & K3 & K2 & _).
        destruct f; cbn [attr_loop]; rewrite K2, K1; cbn [bind]; rewrite N.eqb_refl; simpl;
          rewrite andb_false_r; split; auto; split; auto; split; auto; lia.
      + simpl in H. destruct (suf_get _ _ _ _ H) as (K1 & _ & K3 & K2 & _).
        destruct fuel; cbn [attr_loop]; rewrite K2, K1; cbn [bind]; rewrite N.eqb_refl; simpl;
          rewrite andb_true_r; split; auto.
    - destruct (proj1 Hok a (or_introl eq_refl)) as (_ & Hw & Hk & Hv).
      pose proof (rest_tail _ _ _ _ Hok) as Hok'.
      pose proof (rest_bare a ats ws sl r) as Hbare.
      set (rest := attrs_src ats ++ tag_tail ws sl r) in *.
      assert (H1 : suf t i (word_src (a_key a) ++
               match a_val a with Some v => cEQ :: word_src v | None => [] end ++ rest)).
      { assert (E : attrs_src (a :: ats) ++ tag_tail ws sl r =
          a_ws a ++ word_src (a_key a) ++
               match a_val a with Some v => cEQ :: word_src v | None => [] end ++ rest).
        { unfold rest. simpl. unfold attr_src. rewrite <- !app_assoc. reflexivity. }
        rewrite E in H. rewrite dropb_app in H by auto.
        destruct (key_head _ Hk) as (c & x & Ec & Hc & _). rewrite dropb_id in H; auto.
        rewrite Ec. simpl. auto. }
      clear H. destruct (key_head _ Hk) as (c & x & Ec & Hc1 & Hc2 & Hc3).
      assert (Gc : suf t i (c :: x ++ match a_val a with Some v => cEQ :: word_src v | None => [] end ++ rest)).
      { rewrite Ec in H1. exact H1. }
      destruct (suf_get _ _ _ _ Gc) as (G1 & _ & G3 & G2 & _).
      destruct fuel as [|f]; [lia|]. cbn [attr_loop]. rewrite G2, G1. cbn [bind].
      destruct (N.eqb_spec c cGT); [congruence|]. destruct (N.eqb_spec c cSLASH); [congruence|].
      rewrite Hc1. cbn [negb].
      assert (Lk : 0 < length (word_src (a_key a))) by (rewrite Ec; simpl; lia).
      destruct (a_val a) as [v|] eqn:Ev.
      + rewrite (prop_key (a_key a) ((cEQ :: word_src v) ++ rest)); auto.
        2:{ intros s _. simpl. auto. }
        cbn [bind]. apply suf_app in H1. simpl in H1.
        destruct (suf_get _ _ _ _ H1) as (_ & -> & _). rewrite N.eqb_refl.
        apply suf_cons in H1. rewrite (prop_value v rest); auto.
        2:{ intros s Es. eapply Hbare; eauto. }
        cbn [bind]. apply suf_app in H1.
        rewrite bind_assoc. eapply safe_bind.
        { apply add_property_ok; [apply A|]. rewrite (attrs_added_len _ _ _ _ _ A). auto. }
        intros d' Hd'. cbn [bind].
        destruct (suf_skip _ _ _ H1) as (j & Ej & Hj & Lj). rewrite Ej. cbn [bind].
        eapply safe_imp; [apply (IH can j d' d0 bs (ps ++ [(word_val (a_key a), word_val v)])); auto; try lia;
          eapply attrs_added_prop; eauto|].
        intros [[can' j'] d''] (R1 & R2 & R3 & R4). split; auto. split; auto. split; [lia|].
        simpl. unfold bools_of in *. simpl. rewrite Ev. rewrite <- app_assoc in R4. exact R4.
      + simpl in H1. rewrite (prop_key (a_key a) rest); auto.
        2:{ intros s Es. eapply Hbare; eauto. }
        cbn [bind]. apply suf_app in H1.
        rewrite (rest_not_eq ats ws sl r _ Hok' H1).
        rewrite bind_assoc. eapply safe_bind.
        { apply add_bool_property_ok; [apply A|]. rewrite (attrs_added_len _ _ _ _ _ A). auto. }
        intros d' Hd'. cbn [bind].
        destruct (suf_skip _ _ _ H1) as (j & Ej & Hj & Lj). rewrite Ej. cbn [bind].
        eapply safe_imp; [apply (IH can j d' d0 (bs ++ [word_val (a_key a)]) ps); auto; try lia;
          eapply attrs_added_bool; eauto|].
        intros [[can' j'] d''] (R1 & R2 & R3 & R4). split; auto. split; auto. split; [lia|].
        unfold bools_of, props_of in *. simpl. rewrite Ev. simpl. rewrite <- app_assoc in R4. exact R4.
  Qed.

  Lemma parse_document_node_exact name ats ws sl r i d exclam :
    RegInv d -> all name_char name -> name <> [] -> tag_rest_ok ats ws sl ->
    suf t i (name ++ attrs_src ats ++ tag_tail ws sl r) ->
    safe False (fun '(id, can, tag, j, d') =>
        can = negb exclam && negb (is_void name) && negb sl /\ tag = name /\
        suf t j r /\ i < j /\
        elem_added d d' id name (bools_of ats) (props_of ats) /\
        tag_pairs d' = note (tag_pairs d) (name, can))
      (parse_document_node t i exclam d).
  Proof.
    intros R Hn Hne Hok H. unfold parse_document_node.
    eapply safe_bind; [apply create_node_ok|].
    intros [id d1] [E _]. injection E as -> ->.
    set (id := length (nodes d)). set (d1 := push_node d (mkNode id TDocument PNone)).
    assert (R1 : RegInv d1) by (apply RegInv_push; auto; discriminate).
    assert (Hname : forall c, In c name -> ((c =? cGT)%N || is_blank c) = false).
    { intros c Hc. destruct (name_spec c (Hn c Hc)) as (-> & ? & _).
      destruct (N.eqb_spec c cGT); [congruence|reflexivity]. }
    destruct (@exists_last _ name Hne) as (n0 & cl & En).
    assert (Hcl : name_char cl = true) by (apply Hn; rewrite En; apply in_or_app; simpl; auto).
    apply name_spec in Hcl as (Hcl1 & Hcl2 & Hcl3).
    (* the end of the name: tag, can, position behind it *)
    assert (Hhead : exists j, scan t (fun c => (c =? cGT)%N || is_blank c) i = Ok j /\ i < j /\
      exists slash, (if (current_char t j =? cGT)%N then
         match j with
         | O => Undef OobRead
         | S j' => let* p := get_char t j' in Ok (p =? cSLASH)%N
         end
       else Ok false) = Ok slash /\
      ((slash = true /\ sl = true /\ ats = [] /\ j - i = S (length name) /\
          suf t j (cGT :: r)) \/
       (slash = false /\ j - i = length name /\ suf t j (attrs_src ats ++ tag_tail ws sl r)))).
    { destruct (rest_head ats ws sl r Hok) as (c & x & Ec & D).
      assert (Hl : forall r', suf t i (name ++ r') ->
         match i + length name with
         | O => Undef OobRead
         | S j' => let* p := get_char t j' in Ok (p =? cSLASH)%N
         end = Ok false).
      { intros r' H'. rewrite En in H'. destruct (suf_last _ _ _ _ _ H') as [E _].
        rewrite <- En in E. rewrite En at 1. rewrite app_length. simpl.
        destruct (i + (length n0 + 1)) as [|j'] eqn:Ej; [lia|].
        rewrite En, app_length in E. simpl in E. rewrite Ej in E. simpl in E.
        rewrite Nat.sub_0_r in E. rewrite E. cbn [bind].
        destruct (N.eqb_spec cl cSLASH); [congruence|reflexivity]. }
      assert (Ln : 0 < length name) by (rewrite En, app_length; simpl; lia).
      destruct D as [D|[D|(D1 & D2 & D3 & D4)]].
      - exists (i + length name). split.
        { eapply suf_scan; [exact H| |].
          - intros y Hy. now apply Hname.
          - rewrite Ec. rewrite D. apply orb_true_r. }
        split; [lia|]. exists false. apply suf_app in H. rewrite Ec in H.
        destruct (suf_get _ _ _ _ H) as (_ & -> & _). rewrite (blank_not c cGT D eq_refl).
        split; auto. right. rewrite Ec. split; auto. split; [lia|auto].
      - subst c. exists (i + length name). split.
        { eapply suf_scan; [exact H| |].
          - intros y Hy. now apply Hname.
          - rewrite Ec. reflexivity. }
        split; [lia|]. exists false. specialize (Hl _ H). apply suf_app in H. rewrite Ec in H.
        destruct (suf_get _ _ _ _ H) as (_ & -> & _). rewrite N.eqb_refl.
        split; [exact Hl|]. right. rewrite Ec. split; auto. split; [lia|auto].
      - subst c ats ws sl. simpl in H. unfold tag_tail in H. simpl in H.
        exists (i + length (name ++ [cSLASH])). split.
        { eapply (suf_scan t i (name ++ [cSLASH]) (cGT :: r)).
          - rewrite <- app_assoc. exact H.
          - intros y Hy. apply in_app_or in Hy as [Hy|[<-|[]]]; [now apply Hname|reflexivity].
          - reflexivity. }
        split; [rewrite app_length; lia|]. exists true.
        assert (H' : suf t i ((name ++ [cSLASH]) ++ cGT :: r)) by (rewrite <- app_assoc; exact H).
        destruct (suf_last _ _ _ _ _ H') as [G _]. apply suf_app in H'.
        destruct (suf_get _ _ _ _ H') as (_ & -> & _). rewrite N.eqb_refl.
        split.
        { destruct (i + length (name ++ [cSLASH])) as [|j'] eqn:Ej;
            [rewrite app_length in Ej; lia|].
          simpl in G. rewrite Nat.sub_0_r in G. rewrite G. reflexivity. }
        left. repeat split; auto. rewrite app_length. simpl. lia. }
    destruct Hhead as (j & -> & Hij & slash & Es & Hcase). cbn [bind].
    rewrite Es. cbn [bind]. clear Es.
    (* both cases continue the same way *)
    assert (Fin : forall can0 ats' ws' sl' j', suf t j' (dropb (attrs_src ats' ++ tag_tail ws' sl' r)) ->
        i < j' ->
        tag_rest_ok ats' ws' sl' -> bools_of ats' = bools_of ats -> props_of ats' = props_of ats ->
        can0 && negb sl' = negb exclam && negb (is_void name) && negb sl ->
        safe False (fun '(id, can, tag, j, d') =>
          can = negb exclam && negb (is_void name) && negb sl /\ tag = name /\
          suf t j r /\ i < j /\
          elem_added d d' id name (bools_of ats) (props_of ats) /\
          tag_pairs d' = note (tag_pairs d) (name, can))
        (let* '(can, j, d) := attr_loop (S (length t)) t id can0 j' d1 in
         let* d := set_tag name id can d in
         Ok (id, can, name, S j, d))).
    { intros can0 ats' ws' sl' j' Hj Hlt Hok' Eb Ep Ecan.
      eapply safe_bind.
      { apply safe_eq. eapply attr_loop_exact; [apply attrs_added_refl, R1| |exact Hok'|exact Hj|lia].
        unfold d1, id. simpl. rewrite app_length. simpl. lia. }
      intros [[can2 j3] d2] [(L1 & L2 & L4 & A) TL]. simpl in A. apply attr_loop_tags in TL. rewrite Eb, Ep in A.
      destruct A as (R2 & (V1 & V2 & V3 & V4) & X2 & be & pe & G1 & G2 & G3 & G4 & G5 & G6).
      assert (Hnn : nth_error (nodes d2) id = Some (mkNode id TDocument PNone)).
      { rewrite V1. unfold d1, id. simpl. rewrite nth_error_app2, Nat.sub_diag; auto. }
      eapply safe_bind; [apply safe_eq, (set_tag_ok _ id _ d2 _ R2 Hnn)|].
      intros d3 [(R3 & (T1 & T2 & T3) & X3 & B3 & P3 & tg & rr & N3 & E3 & F3 & Z3) TS].
      apply set_tag_pairs in TS; auto.
      assert (TP : tag_pairs d2 = tag_pairs d).
      { unfold tag_pairs. rewrite TL. reflexivity. }
      rewrite TP in TS.
      cbn [safe].
      split; [rewrite L1; exact Ecan|]. split; [auto|]. split; [eapply suf_cons; eauto|].
      split; [lia|]. split; [|exact TS].
      split; [reflexivity|]. split; [auto|]. split.
      { repeat split; [rewrite T1, V2|rewrite T2, V3|rewrite T3, V4]; reflexivity. }
      split. { eapply regs_ext_trans; [|exact X3]. exact X2. }
      split.
      + exists tg, rr. split; [|auto]. rewrite N3, V1. unfold d1. simpl.
        unfold id. now rewrite upd_last.
      + exists be, pe. split; [rewrite B3, G1; reflexivity|].
        split; [rewrite P3, G2; reflexivity|]. split; auto. split; auto.
        assert (Hr : (forall e, In e be -> snd e < length (bool_reg d2)) /\
          (forall e, In e pe -> p_key e < length (key_reg d2) /\
                                p_val e < length (val_reg d2))).
        { apply (attrs_added_in_range d1); auto. }
        destruct Hr as [Hr1 Hr2]. split.
        * rewrite <- G5. apply map_ext_in. intros e He. apply rd_bool_ext; auto.
        * rewrite <- G6. apply map_ext_in. intros e He. destruct (Hr2 e He).
          apply rd_prop_ext; auto. }
    destruct Hcase as [(-> & -> & -> & Esz & Hj)|(-> & Esz & Hj)].
    - rewrite Esz. cbn [bind].
      rewrite (suf_slice t i name _ H). cbn [bind].
      destruct (suf_skip _ _ _ Hj) as (j2 & Ej & Hj2 & Lj). rewrite Ej. cbn [bind].
      apply (Fin _ [] [] false j2); auto; try lia.
      + split; [intros c []|]. split; [intros c []|discriminate].
      + destruct (is_void name), exclam; reflexivity.
    - cbn [bind]. rewrite Esz, (suf_slice t i name _ H). cbn [bind].
      destruct (suf_skip _ _ _ Hj) as (j2 & Ej & Hj2 & Lj). rewrite Ej. cbn [bind].
      apply (Fin _ ats ws sl j2); auto; try lia.
      destruct (is_void name), exclam; reflexivity.
  Qed.

  (** ** End tags *)
  Lemma is_end_tag_no tag i c r : suf t i (cLT :: c :: r) -> c <> cSLASH ->
    is_end_tag t i tag = Ok false.
  Proof.
    intros H Hc. apply suf_cons in H. unfold is_end_tag.
    destruct (suf_get _ _ _ _ H) as (_ & -> & _).
    destruct (N.eqb_spec c cSLASH); [congruence|reflexivity].
  Qed.
  Lemma is_end_tag_diff n i w r : suf t i (cLT :: w ++ r) ->
    ~ prefix (cSLASH :: n) w -> ~ prefix w (cSLASH :: n) -> is_end_tag t i n = Ok false.
  Proof.
    intros H H1 H2. unfold is_end_tag.
    destruct (N.eqb_spec (current_char t (S i)) cSLASH) as [E|]; [|reflexivity]. cbn [andb].
    destruct (Nat.ltb_spec (S i + length n + 1) (length t)) as [L|]; [|reflexivity].
    apply suf_cons in H.
    destruct w as [|c w]; [exfalso; apply H2; eexists; reflexivity|].
    simpl in H. destruct (suf_get _ _ _ _ H) as (_ & Ec & _). rewrite E in Ec. subst c.
    apply suf_cons in H. pose proof (suf_len _ _ _ H) as Ll. rewrite app_length in Ll.
    assert (Hs : exists a b, w ++ r = a ++ b /\ length a = length n).
    { exists (firstn (length n) (w ++ r)), (skipn (length n) (w ++ r)).
      split; [symmetry; apply firstn_skipn|]. rewrite firstn_length, app_length. lia. }
    destruct Hs as (a & x & Ea & La). rewrite Ea in H. rewrite <- La.
    rewrite (suf_slice _ _ _ _ H). cbn [bind]. f_equal. apply not_true_is_false. intros B.
    apply beq_eq in B. subst a. clear - Ea H1 H2.
    revert n Ea H1 H2. induction w as [|c w IH]; intros n Ea H1 H2.
    - apply H2. eexists. reflexivity.
    - destruct n as [|c' n]; [apply H1; eexists; reflexivity|]. simpl in Ea.
      injection Ea as <- Ea. apply (IH n Ea).
      + intros [s E]. injection E as E. apply H1. exists s. simpl. now rewrite E.
      + intros [s E]. injection E as E. apply H2. exists s. simpl. now rewrite E.
  Qed.
  Lemma is_end_tag_yes tag e i r : suf t i (cLT :: cSLASH :: tag ++ e ++ cGT :: r) ->
    is_end_tag t i tag = Ok true.
  Proof.
    intros H. pose proof (suf_len _ _ _ H) as L. simpl in L. rewrite !app_length in L. simpl in L.
    apply suf_cons in H. unfold is_end_tag.
    destruct (suf_get _ _ _ _ H) as (_ & -> & _). rewrite N.eqb_refl.
    destruct (Nat.ltb_spec (S i + length tag + 1) (length t)); [|lia]. cbn [andb].
    apply suf_cons in H. rewrite (suf_slice t (S (S i)) tag _ H). cbn [bind].
    now rewrite beq_refl.
  Qed.
  Lemma end_scan i x r : suf t i (cLT :: cSLASH :: x ++ cGT :: r) -> ~ In cGT x ->
    exists j, scan t (fun c => (c =? cGT)%N) i = Ok j /\ i < j /\ suf t (S j) r.
  Proof.
    intros H Hx. exists (i + length (cLT :: cSLASH :: x)). split; [|split].
    - apply (suf_scan t i (cLT :: cSLASH :: x) (cGT :: r)); auto.
      intros c [<-|[<-|Hc]]; auto. destruct (N.eqb_spec c cGT); [congruence|auto].
    - simpl. lia.
    - eapply suf_cons. apply (suf_app t i (cLT :: cSLASH :: x)). exact H.
  Qed.
End Tag.

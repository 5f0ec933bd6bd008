(** * The reference reader: independence of fuel, equations, locality. *)
From Coq Require Import List NArith Arith Bool Lia.
From Verif Require Import Base ParserModel GrammarSpec ReaderSpec GrammarScan GrammarText GrammarTag
  ReaderScan ReaderTag ReaderText.
Import ListNotations.
Local Open Scope nat_scope.

Lemma prop_lt c r s r' : prop_at (c :: r) = Some (s, r') -> is_blank c = false -> c <> cGT -> c <> cEQ ->
  length r' <= length r.
Proof.
  intros H Hb Hg He. cbn [prop_at] in H. destruct (is_quote c) eqn:Eq.
  - destruct r as [|a y]; [discriminate|].
    pose proof (span_len (fun x => negb (x =? c)%N) (a :: y)) as L.
    destruct (snd (span (fun x => negb (x =? c)%N) (a :: y))) as [|z r2]; injection H as _ <-; simpl in *; lia.
  - assert (Hc : bare_char c = true).
    { unfold bare_char. rewrite Hb. destruct (N.eqb_spec c cEQ), (N.eqb_spec c cGT); auto; congruence. }
    cbn [span] in H. rewrite Hc in H. injection H as _ <-. pose proof (span_len bare_char r). lia.
Qed.
Lemma prop_eq r : exists s, prop_at (cEQ :: r) = Some (s, cEQ :: r).
Proof. exists []. reflexivity. Qed.

(** One attribute is consumed: strictly shorter, even when it begins with '='. *)
Lemma attr_lt c r k r2 : prop_at (c :: r) = Some (k, r2) -> is_blank c = false -> c <> cGT ->
  match r2 with
  | e :: r3 => if (e =? cEQ)%N then
                 forall v r4, prop_at r3 = Some (v, r4) -> length r4 <= length r
               else length r2 <= length r
  | [] => True
  end.
Proof.
  intros H Hb Hg. destruct (N.eqb_spec c cEQ) as [->|He].
  - cbn in H. injection H as <- <-. rewrite N.eqb_refl. intros v r4 H4. apply prop_len in H4. auto.
  - apply prop_lt in H; auto. destruct r2 as [|e r3]; auto.
    destruct (e =? cEQ)%N; auto. intros v r4 H4. apply prop_len in H4. simpl in H. lia.
Qed.

Lemma attrs_fuel : forall f g can bs ps r, length r < f -> length r < g ->
  attrs_at f can bs ps r = attrs_at g can bs ps r.
Proof.
  induction f as [|f IH]; intros g can bs ps r Hf Hg; [lia|]. destruct g as [|g]; [lia|].
  cbn [attrs_at]. rewrite skip_blanks_dropb. pose proof (dropb_len r) as L. pose proof (dropb_head r) as Hh.
  destruct (dropb r) as [|c r1]; auto. cbn [length] in L.
  destruct (N.eqb_spec c cGT) as [|Hc]; auto. destruct (c =? cSLASH)%N; [apply IH; lia|].
  destruct (prop_at (c :: r1)) as [[k r2]|] eqn:E; auto.
  pose proof (attr_lt _ _ _ _ E Hh Hc) as A. destruct r2 as [|e r3]; [apply IH; simpl; lia|].
  destruct (e =? cEQ)%N.
  - destruct (prop_at r3) as [[v r4]|]; auto. specialize (A v r4 eq_refl). apply IH; lia.
  - apply IH; lia.
Qed.
Lemma attrs_len : forall f can bs ps r can' bs' ps' r', length r < f ->
  attrs_at f can bs ps r = Some (can', bs', ps', r') -> length r' <= length r.
Proof.
  induction f as [|f IH]; intros can bs ps r can' bs' ps' r' Hf H; [lia|].
  cbn [attrs_at] in H. rewrite skip_blanks_dropb in H. pose proof (dropb_len r) as L. pose proof (dropb_head r) as Hh.
  destruct (dropb r) as [|c r1]; [injection H as <- <- <- <-; simpl; lia|]. cbn [length] in L.
  destruct (N.eqb_spec c cGT) as [|Hc]; [injection H as <- <- <- <-; simpl; lia|].
  destruct (c =? cSLASH)%N; [apply IH in H; lia|].
  destruct (prop_at (c :: r1)) as [[k r2]|] eqn:E; [|discriminate].
  pose proof (attr_lt _ _ _ _ E Hh Hc) as A. destruct r2 as [|e r3]; [apply IH in H; simpl in *; lia|].
  destruct (e =? cEQ)%N.
  - destruct (prop_at r3) as [[v r4]|]; [|discriminate]. specialize (A v r4 eq_refl). apply IH in H; lia.
  - apply IH in H; lia.
Qed.
Lemma tag_len r n bs ps can r' : tag_at r = Some (n, bs, ps, can, r') -> length r' <= length r.
Proof.
  unfold tag_at. intros H. set (p := fun c => negb (c =? cGT)%N && negb (is_blank c)) in *.
  pose proof (span_len p r) as L.
  destruct (attrs_at _ _ _ _ _) as [[[[c b] q] r2]|] eqn:E; [|discriminate].
  injection H as <- <- <- <- <-. apply attrs_len in E; lia.
Qed.
Lemma words_len r : length (snd (words r)) <= length r.
Proof.
  assert (Lw : forall n y, length y <= n -> length (snd (words y)) <= length y).
  { induction n as [|n IHn]; intros y Hy.
    - destruct y; [rewrite words_nil; auto|simpl in Hy; lia].
    - rewrite <- (words_dropb y). pose proof (dropb_len y) as Ly. pose proof (dropb_head y) as Hh.
      destruct (dropb y) as [|a y']; [rewrite words_nil; simpl; lia|]. cbn [length] in Ly.
      destruct (N.eqb_spec a cLT) as [->|Ha].
      + destruct (at_comment (cLT :: y')) eqn:Ec.
        * rewrite (words_comment _ _ Ec). pose proof (after_comment_len cLT y').
          specialize (IHn (after_comment (cLT :: y'))). lia.
        * rewrite (words_lt _ Ec). simpl. lia.
      + pose proof (text_or a Hh Ha) as Ta. rewrite (words_word a y' Ta). cbn [snd].
        assert (E2 : snd (span text_char (a :: y')) = snd (span text_char y')) by (cbn [span]; rewrite Ta; reflexivity).
        rewrite E2. pose proof (span_len text_char y').
        specialize (IHn (snd (span text_char y'))). lia. }
  eauto.
Qed.
Lemma text_snd r : snd (text_at r) = snd (words r).
Proof. now rewrite text_at_words. Qed.
Lemma text_len r : length (snd (text_at r)) <= length r.
Proof. rewrite text_snd. apply words_len. Qed.
Lemma text_lt c r : text_char c = true -> length (snd (text_at (c :: r))) <= length r.
Proof.
  intros H. rewrite text_snd, (words_word c r H). cbn [snd].
  assert (E2 : snd (span text_char (c :: r)) = snd (span text_char r)) by (cbn [span]; rewrite H; reflexivity).
  rewrite E2. pose proof (words_len (snd (span text_char r))). pose proof (span_len text_char r). lia.
Qed.
Lemma after_gt_len r : length (after_gt r) <= length r.
Proof.
  unfold after_gt. pose proof (span_len (fun c => negb (c =? cGT)%N) r).
  destruct (snd (span _ r)); simpl in *; lia.
Qed.
Lemma after_gt_lt c r : c <> cGT -> length (after_gt (c :: r)) <= length r.
Proof.
  intros H. unfold after_gt. cbn [span]. destruct (N.eqb_spec c cGT); [congruence|].
  cbn [negb snd]. apply (after_gt_len r).
Qed.

(** Is this the start of a tag? *)
Definition at_tag (c : N) (r1 : bytes) : bool :=
  (c =? cLT)%N && match r1 with c1 :: _ => is_alpha c1 || (c1 =? cBANG)%N | [] => false end.

Lemma read_fuel : forall f g base limit cur st us r, length r < f -> length r < g ->
  read f base limit cur st us r = read g base limit cur st us r.
Proof.
  induction f as [|f IH]; intros g base limit cur st us r Hf Hg; [lia|]. destruct g as [|g]; [lia|].
  cbn [read]. rewrite skip_blanks_dropb. pose proof (dropb_len r) as L. pose proof (dropb_head r) as Hh.
  destruct (dropb r) as [|c r1]; auto. cbn [length] in L.
  destruct (at_comment (c :: r1)) eqn:Ec.
  { pose proof (after_comment_len c r1). apply IH; lia. }
  destruct (at_end_tag (top_name base st) (c :: r1)) eqn:Ee.
  { pose proof (at_end_tag_lt _ _ _ Ee) as ->. pose proof (after_gt_lt cLT r1 ltac:(discriminate)).
    destruct st as [|[[[n bs] ps] bef] st']; apply IH; lia. }
  fold (at_tag c r1). destruct (at_tag c r1) eqn:Et.
  - destruct (tag_at r1) as [[[[[n bs] ps] can] r2]|] eqn:E; auto. apply tag_len in E.
    destruct can; [destruct (limit <=? length st); auto|]; apply IH; lia.
  - destruct (N.eqb_spec c cLT) as [->|Hc].
    + pose proof (text_len r1). apply IH; lia.
    + pose proof (text_lt c r1 (text_or c Hh Hc)). apply IH; lia.
Qed.

Definition rd base limit cur st us r := read (S (length r)) base limit cur st us r.
Section Rd.
  Context (base : bytes) (limit : nat).
  Local Notation rd := (rd base limit).

  Lemma rd_eq cur st us r : rd cur st us r =
      match dropb r with
      | [] => Trees (close_all cur st) us
      | c :: r1 =>
          if at_comment (c :: r1) then rd cur st us (after_comment (c :: r1))
          else if at_end_tag (top_name base st) (c :: r1) then
            match st with
            | [] => rd cur [] us (after_gt (c :: r1))
            | (n, bs, ps, before) :: st' => rd (before ++ [Elem n bs ps cur]) st' us (after_gt (c :: r1))
            end
          else if at_tag c r1 then
            match tag_at r1 with
            | None => BadQuote
            | Some (n, bs, ps, can, r2) =>
                if (can : bool) then
                  if limit <=? length st then TooDeep
                  else rd [] ((n, bs, ps, cur) :: st) (us ++ [(n, true)]) r2
                else rd (cur ++ [Elem n bs ps []]) st (us ++ [(n, false)]) r2
            end
          else
            let m := text_at (if (c =? cLT)%N then r1 else c :: r1) in
            rd (cur ++ [Txt (fst m)]) st us (snd m)
      end.
  Proof.
    unfold ReaderFacts.rd at 1. cbn [read]. rewrite skip_blanks_dropb.
    pose proof (dropb_len r) as L. pose proof (dropb_head r) as Hh.
    destruct (dropb r) as [|c r1]; auto. cbn [length] in L.
    destruct (at_comment (c :: r1)) eqn:Ec.
    { pose proof (after_comment_len c r1). apply read_fuel; lia. }
    destruct (at_end_tag (top_name base st) (c :: r1)) eqn:Ee.
    { pose proof (at_end_tag_lt _ _ _ Ee) as ->. pose proof (after_gt_lt cLT r1 ltac:(discriminate)).
      destruct st as [|[[[n bs] ps] bef] st']; apply read_fuel; lia. }
    fold (at_tag c r1). destruct (at_tag c r1) eqn:Et.
    - destruct (tag_at r1) as [[[[[n bs] ps] can] r2]|] eqn:E; auto. apply tag_len in E.
      destruct can; [destruct (limit <=? length st); auto|]; apply read_fuel; lia.
    - destruct (N.eqb_spec c cLT) as [->|Hc].
      + pose proof (text_len r1). apply read_fuel; lia.
      + pose proof (text_lt c r1 (text_or c Hh Hc)). apply read_fuel; lia.
  Qed.
  Lemma rd_dropb cur st us r : rd cur st us (dropb r) = rd cur st us r.
  Proof. rewrite (rd_eq _ _ _ r), rd_eq, dropb_idem. reflexivity. Qed.
  Lemma rd_blanks cur st us ws r : blanks ws -> rd cur st us (ws ++ r) = rd cur st us r.
  Proof. intros H. rewrite <- rd_dropb, dropb_app, rd_dropb; auto. Qed.
End Rd.

(** ** Reading the pieces of the grammar, whatever follows *)
Lemma span_word p w r : all p w -> match r with [] => True | c :: _ => p c = false end ->
  span p (w ++ r) = (w, r).
Proof.
  induction w as [|c w IH]; intros H Hr; simpl.
  - destruct r as [|c r]; auto. simpl. now rewrite Hr.
  - rewrite (H c) by (simpl; auto). rewrite IH; auto. intros x Hx. apply H. simpl; auto.
Qed.

Lemma after_dashes_at a b body r : forall n,
  length body <= n ->
  (forall p s, a :: b :: body ++ [cDASH; cDASH] <> p ++ [cDASH; cDASH; cGT] ++ s) ->
  after_dashes (a :: b :: body ++ [cDASH; cDASH; cGT] ++ r) = r.
Proof.
  intros n. revert a b body. induction n as [|n IH]; intros a b body Hn H.
  all: set (y := b :: body ++ [cDASH; cDASH; cGT] ++ r).
  all: assert (Ns : starts [cDASH; cDASH; cGT] (a :: y) = false).
  1,3: destruct (starts [cDASH; cDASH; cGT] (a :: y)) eqn:E; auto; exfalso;
    apply starts_iff in E as [s E]; unfold y in E; cbn [app] in E; injection E as -> -> E;
    destruct body as [|x body]; cbn [app] in E; [discriminate|injection E as -> E];
    apply (H [] (body ++ [cDASH; cDASH])); reflexivity.
  all: cbn [after_dashes]; rewrite Ns.
  - destruct body; [|simpl in Hn; lia]. unfold y. cbn [app].
    cbn [after_dashes starts]. change (cDASH =? cGT)%N with false. rewrite N.eqb_refl, !andb_false_r. cbn [starts].
    change (cDASH =? cGT)%N with false. change (cDASH =? cDASH)%N with true. change (cGT =? cGT)%N with true.
    cbn [andb skipn]. reflexivity.
  - unfold y. destruct body as [|x body].
    + cbn [app].
      cbn [after_dashes starts]. change (cDASH =? cGT)%N with false. rewrite N.eqb_refl, !andb_false_r. cbn [starts].
      change (cDASH =? cGT)%N with false. change (cDASH =? cDASH)%N with true. change (cGT =? cGT)%N with true.
      cbn [andb skipn]. reflexivity.
    + cbn [app]. apply IH; [simpl in Hn; lia|]. intros p s E. apply (H (a :: p) s). cbn [app] in *. now rewrite E.
Qed.
Lemma com_at body r : com_ok body ->
  at_comment (com_src body ++ r) = true /\ after_comment (com_src body ++ r) = r.
Proof.
  intros H. split.
  - unfold at_comment, com_src. cbn [app starts]. rewrite !N.eqb_refl. cbn [andb length].
    rewrite !app_length. simpl. apply Nat.ltb_lt. lia.
  - unfold after_comment, com_src. cbn [app skipn]. rewrite <- app_assoc.
    apply (after_dashes_at cDASH cDASH body r (length body)); auto.
Qed.
Lemma not_com r : (forall s, r <> [cBANG; cDASH; cDASH] ++ s) -> at_comment (cLT :: r) = false.
Proof.
  intros H. unfold at_comment. destruct (starts _ _) eqn:E; auto.
  apply starts_iff in E as [s E]. cbn [app] in E. injection E as E. exfalso. exact (H s E).
Qed.

(** Words and gaps. *)
Lemma words_pieces : forall ps r, pieces_ok ps -> stops r -> words (psrc ps ++ r) = (pwords ps, r).
Proof.
  induction ps as [|p ps IH]; intros r H Hr.
  - cbn [psrc flat_map app pwords]. destruct Hr as [->|(r' & -> & Hr)]; [reflexivity|].
    apply words_lt. now apply not_com.
  - destruct H as (H1 & H2 & H3). unfold psrc. cbn [flat_map]. fold (psrc ps). rewrite <- app_assoc.
    destruct p as [[ws|body]|w]; cbn [piece_ok piece_src gap_ok gap_src] in *.
    + rewrite <- words_dropb, dropb_app, words_dropb by apply H1. cbn. apply IH; auto.
    + destruct (com_at body (psrc ps ++ r) H1) as [A B].
      destruct (com_src body) as [|c x] eqn:E; [discriminate|]. cbn [app] in *.
      rewrite words_comment, B by auto. apply IH; auto.
    + destruct H1 as [N1 A1]. destruct w as [|c w]; [congruence|]. cbn [app].
      rewrite words_word by (apply A1; simpl; auto). change (c :: w ++ psrc ps ++ r) with ((c :: w) ++ psrc ps ++ r).
      rewrite (span_word text_char (c :: w)); auto.
      * cbn [fst snd]. rewrite IH; auto.
      * destruct ps as [|[g|w']]; cbn [psrc flat_map app] in *; [|destruct H2 as [G _]|contradiction].
        -- destruct Hr as [->|(r' & -> & _)]; [exact I|reflexivity].
        -- destruct g as [ws|body]; cbn [piece_src gap_src gap_ok piece_ok] in *; [|reflexivity].
           destruct G as [Hne Hb]. destruct ws as [|a ws]; [congruence|]. cbn [app]. unfold text_char.
           rewrite (Hb a) by (simpl; auto). reflexivity.
Qed.
Lemma text_run w more after r : run_ok w more after -> stops r ->
  text_at (run_src_of w more after ++ r) = (text_val w more, r).
Proof.
  intros H Hr. rewrite text_at_words, <- run_src.
  destruct (run_pieces_ok w more after H) as [Hp (ps & Ep & Hg)].
  rewrite words_pieces, run_words by auto. cbn [fst snd]. destruct H as [[Hne Hw] _].
  destruct w as [|c w]; [congruence|].
  assert (E : exists y, psrc (run_pieces (c :: w) more after) ++ r = c :: y) by (rewrite Ep; cbn; eauto).
  destruct E as [y ->]. destruct (text_char_spec c) as [-> _]; [apply Hw; simpl; auto|].
  cbn [text_result]. rewrite conc_more. reflexivity.
Qed.

(** Attributes. *)
Lemma prop_bare_at s r : s <> [] -> all bare_char s -> no_quote_first s -> ends_word r ->
  prop_at (s ++ r) = Some (s, r).
Proof.
  intros Hne Ha Hq Hr. destruct s as [|c s]; [congruence|]. cbn [app prop_at].
  rewrite (Hq c s eq_refl). change (c :: s ++ r) with ((c :: s) ++ r). f_equal. apply span_word; auto.
  destruct r as [|x r]; auto. unfold bare_char. destruct Hr as [->|[->| ->]]; auto.
Qed.
Lemma prop_quoted_at q s r : quoted_ok q s -> prop_at ((q :: s ++ [q]) ++ r) = Some (s, r).
Proof.
  intros [Hq Hn]. cbn [app prop_at]. rewrite Hq, <- app_assoc. cbn [app].
  destruct (s ++ q :: r) eqn:E; [destruct s; discriminate|]. rewrite <- E.
  rewrite span_word; cbn [fst snd]; auto.
  - intros c Hc. destruct (N.eqb_spec c q) as [->|]; [contradiction|auto].
  - now rewrite N.eqb_refl.
Qed.
Lemma prop_key_at w r : key_ok w -> (forall s, w = Bare s -> ends_word r) ->
  prop_at (word_src w ++ r) = Some (word_val w, r).
Proof.
  destruct w as [s|q s]; cbn [key_ok word_src word_val]; intros H Hr.
  - apply prop_bare_at; try apply H. now apply (Hr s).
  - now apply prop_quoted_at.
Qed.
Lemma prop_value_at w r : value_ok w -> (forall s, w = Bare s -> ends_word r) ->
  prop_at (word_src w ++ r) = Some (word_val w, r).
Proof.
  destruct w as [s|q s]; cbn [value_ok word_src word_val]; intros H Hr.
  - apply prop_bare_at; try apply H. now apply (Hr s).
  - now apply prop_quoted_at.
Qed.
Lemma tail_at ws sl r can bs ps f : blanks ws -> length (tag_tail ws sl r) < f ->
  attrs_at f can bs ps (tag_tail ws sl r) = Some (can && negb sl, bs, ps, r).
Proof.
  intros Hb Hf. destruct f as [|f]; [lia|]. cbn [attrs_at]. rewrite skip_blanks_dropb.
  unfold tag_tail in *. rewrite dropb_app by auto. destruct sl; cbn [app dropb].
  - change (is_blank cSLASH) with false. cbn iota. change (cSLASH =? cGT)%N with false.
    rewrite N.eqb_refl. destruct f as [|f]; [rewrite !app_length in Hf; simpl in Hf; lia|].
    cbn [attrs_at skip_blanks]. change (is_blank cGT) with false. cbn iota. rewrite N.eqb_refl.
    now rewrite andb_false_r.
  - change (is_blank cGT) with false. cbn iota. rewrite N.eqb_refl. now rewrite andb_true_r.
Qed.
Lemma attrs_src_at ws sl r : forall ats can bs ps f, tag_rest_ok ats ws sl ->
  length (attrs_src ats ++ tag_tail ws sl r) < f ->
  attrs_at f can bs ps (attrs_src ats ++ tag_tail ws sl r)
  = Some (can && negb sl, bs ++ bools_of ats, ps ++ props_of ats, r).
Proof.
  induction ats as [|a ats IH]; intros can bs ps f H Hf.
  { cbn [attrs_src flat_map app bools_of props_of] in *. rewrite !app_nil_r. apply tail_at; auto. apply H. }
  pose proof (rest_tail a ats ws sl H) as H'. destruct f as [|f]; [lia|].
  destruct H as (Ha & Hw & Hs). pose proof (Ha a (or_introl eq_refl)) as (A1 & A2 & A3 & A4).
  set (R := attrs_src ats ++ tag_tail ws sl r).
  assert (Es : attrs_src (a :: ats) ++ tag_tail ws sl r =
    a_ws a ++ word_src (a_key a) ++ match a_val a with Some v => cEQ :: word_src v | None => [] end ++ R).
  { unfold attrs_src, R. cbn [flat_map]. unfold attr_src at 1. now rewrite <- !app_assoc. }
  rewrite Es in *. cbn [attrs_at]. rewrite skip_blanks_dropb, dropb_app by auto.
  destruct (key_head _ A3) as (c & x & Ek & Hb & Hg & Hsl).
  rewrite Ek at 1. cbn [app]. cbn [dropb]. rewrite Hb.
  destruct (N.eqb_spec c cGT); [congruence|]. destruct (N.eqb_spec c cSLASH); [congruence|].
  rewrite app_comm_cons, <- Ek. clear c x Ek Hb Hg Hsl n n0.
  assert (LW : 0 < length (word_src (a_key a))).
  { destruct (key_head _ A3) as (c & x & -> & _). simpl. lia. }
  rewrite !app_length in Hf.
  destruct (a_val a) as [v|] eqn:Ev.
  - rewrite prop_key_at; auto.
    2:{ intros s _. right. left. reflexivity. }
    cbn [app]. rewrite N.eqb_refl. rewrite prop_value_at; auto.
    2:{ intros s E. apply (rest_bare a ats ws sl r s); [split; [|split]; auto|]. now rewrite Ev. }
    unfold R in *. rewrite IH; auto.
    2:{ rewrite app_length in *. simpl in Hf. lia. }
    unfold bools_of, props_of. cbn [flat_map]. rewrite Ev. now rewrite <- !app_assoc.
  - rewrite prop_key_at; auto.
    2:{ intros s E. cbn [app]. apply (rest_bare a ats ws sl r s); [split; [|split]; auto|]. now rewrite Ev. }
    cbn [app].
    assert (Hh : forall k, match R with e :: r3 => if (e =? cEQ)%N then
          match prop_at r3 with None => None | Some (v, r4) => attrs_at f can bs (ps ++ [(k, v)]) r4 end
          else attrs_at f can (bs ++ [k]) ps R | [] => attrs_at f can (bs ++ [k]) ps R end
        = attrs_at f can (bs ++ [k]) ps R).
    { intros k. destruct (rest_head ats ws sl r H') as (c & x & Ex & Hc). fold R in Ex. rewrite Ex.
      destruct (N.eqb_spec c cEQ) as [->|]; auto.
      destruct Hc as [Hc|[Hc|(Hc & _)]]; discriminate. }
    rewrite Hh. unfold R in *. rewrite IH; auto.
    2:{ rewrite app_length in *. simpl in Hf. lia. }
    unfold bools_of, props_of. cbn [flat_map]. rewrite Ev. now rewrite <- !app_assoc.
Qed.

Lemma tag_src_at name ats ws sl r : all name_char name -> name <> [] -> tag_rest_ok ats ws sl ->
  tag_at (name ++ attrs_src ats ++ tag_tail ws sl r)
  = Some (name, bools_of ats, props_of ats,
          negb (starts [cBANG] name) && negb (is_void name) && negb sl, r).
Proof.
  intros Ha Hne Hr. unfold tag_at.
  set (R := attrs_src ats ++ tag_tail ws sl r). set (p := fun c => negb (c =? cGT)%N && negb (is_blank c)).
  assert (Hp : all p name).
  { intros c Hc. apply Ha in Hc. destruct (name_spec _ Hc) as (H1 & H2 & _). unfold p.
    rewrite H1. destruct (N.eqb_spec c cGT); auto. }
  assert (Hbang : starts [cBANG] (name ++ R) = starts [cBANG] name).
  { destruct name as [|c name]; [congruence|]. cbn. reflexivity. }
  destruct (rest_head ats ws sl r Hr) as (c & x & Ex & Hc). fold R in Ex.
  destruct Hc as [Hc|[Hc|(Hc & -> & -> & ->)]].
  - assert (Sp : span p (name ++ R) = (name, R)).
    { apply span_word; auto. rewrite Ex. unfold p. rewrite Hc. apply andb_false_r. }
    rewrite Sp. cbn [fst snd].
    assert (St : starts [cGT] R = false).
    { rewrite Ex. cbn [starts]. destruct (N.eqb_spec cGT c) as [<-|]; [discriminate|reflexivity]. }
    rewrite St. cbn [andb negb]. rewrite Hbang. unfold R. rewrite attrs_src_at; auto.
    cbn [app]. rewrite andb_true_r. reflexivity.
  - subst c. assert (Sp : span p (name ++ R) = (name, R)).
    { apply span_word; auto. rewrite Ex. reflexivity. }
    rewrite Sp. cbn [fst snd].
    assert (Hl : (last name 0 =? cSLASH)%N = false).
    { destruct (@exists_last _ name Hne) as (y & z & Ey). rewrite Ey, last_word.
      assert (Hz : name_char z = true) by (apply Ha; rewrite Ey; apply in_or_app; simpl; auto).
      destruct (name_spec _ Hz) as (_ & _ & H3). destruct (N.eqb_spec z cSLASH); auto; congruence. }
    rewrite Hl, andb_false_r. cbn [andb negb]. rewrite Hbang. unfold R. rewrite attrs_src_at; auto.
    cbn [app]. rewrite andb_true_r. reflexivity.
  - unfold R in *. clear R. cbn [attrs_src flat_map app tag_tail] in *.
    assert (Sp : span p (name ++ cSLASH :: cGT :: r) = (name ++ [cSLASH], cGT :: r)).
    { change (name ++ cSLASH :: cGT :: r) with (name ++ [cSLASH] ++ cGT :: r). rewrite app_assoc.
      apply span_word; [|reflexivity]. intros y Hy. apply in_app_or in Hy as [Hy|[<-|[]]]; auto. }
    rewrite Sp. cbn [fst snd].
    rewrite last_word, N.eqb_refl. change (starts [cGT] (cGT :: r)) with true. cbn [andb negb].
    rewrite removelast_last, !andb_false_r.
    cbn [attrs_at skip_blanks length]. change (is_blank cGT) with false. cbn iota. rewrite N.eqb_refl. 
    cbn [bools_of props_of flat_map]. reflexivity.
Qed.

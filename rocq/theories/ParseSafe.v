(** * Safety, progress and results of the scanning functions of the parser. *)
From Coq Require Import List NArith Arith Bool Lia.
From Verif Require Import Base TrieModel DomModel ParserModel DomSpec
  Lemmas TrieProofs Tables Inv Surgery RegProofs.
Import ListNotations.
Local Open Scope nat_scope.

(** The input ends with a quote character. *)

Lemma nth_slice {A} (t : list A) i n m :
  m < n -> nth_error (firstn n (skipn i t)) m = nth_error t (i + m).
Proof.
  intros H. revert t n m H. induction i as [|i IH]; intros t n m H; simpl.
  - revert t m H. induction n as [|n IHn]; intros t m H; [lia|].
    destruct t as [|x t]; simpl; [now destruct m|]. destruct m; simpl; auto.
    apply IHn. lia.
  - destruct t as [|x t]; simpl; [|apply IH; auto].
    rewrite firstn_nil. now destruct m.
Qed.

Lemma nth_lt {A} (t : list A) i c : nth_error t i = Some c -> i < length t.
Proof. intros H. apply nth_error_Some. congruence. Qed.

(** White-space normal form, by position: no formatting characters and every
    space is followed by something that is not a space. *)
Lemma normP_nil : normP [].
Proof. intros m c H. destruct m; discriminate. Qed.

Lemma normP_join r x s : normP r -> normP (x :: s) -> x <> cSP ->
  normP (r ++ [cSP] ++ x :: s).
Proof.
  intros Hr Hs Hx m c Hm.
  destruct (Nat.lt_ge_cases m (length r)) as [L|L].
  - rewrite nth_error_app1 in Hm by auto. destruct (Hr m c Hm) as [H1 H2].
    split; auto. intros E. destruct (H2 E) as (c' & Hc' & Hne).
    exists c'. rewrite nth_error_app1; auto. eapply nth_lt; eauto.
  - rewrite nth_error_app2 in Hm by auto.
    remember (m - length r) as j. destruct j as [|j]; simpl in Hm.
    + injection Hm as <-. split; [reflexivity|]. intros _. exists x.
      rewrite nth_error_app2 by lia. replace (S m - length r) with 1 by lia. auto.
    + destruct (Hs j c Hm) as [H1 H2]. split; auto. intros E.
      destruct (H2 E) as (c' & Hc' & Hne). exists c'. split; auto.
      rewrite nth_error_app2 by lia. replace (S m - length r) with (S (S j)) by lia.
      exact Hc'.
Qed.

Lemma blank_cases c : is_blank c = false -> c <> cSP /\ is_fmt c = false.
Proof.
  unfold is_blank. intros H. apply orb_false_iff in H as [H1 H2].
  apply N.eqb_neq in H1. auto.
Qed.

Section Safe.
  Context (N : Prop) (t : bytes).

  Lemma is_comment_ok i : safe N (fun b => b = true -> i + 4 < length t) (is_comment t i).
  Proof.
    unfold is_comment. destruct (Nat.ltb_spec (i + 4) (length t)).
    - eapply safe_bind; [apply safe_read_slice; lia|]. simpl. auto.
    - simpl. discriminate.
  Qed.

  Lemma is_comment_det i :
    exists b, is_comment t i = Ok b /\ (b = true -> i + 4 < length t).
  Proof.
    unfold is_comment. destruct (Nat.ltb_spec (i + 4) (length t)).
    - pose proof (safe_read_slice False t (i + 1) 3) as H1.
      destruct (read_slice t (i + 1) 3) as [s|u|j|] eqn:E; simpl.
      + eexists; split; [reflexivity|]; auto.
      + destruct u; exfalso; apply H1; lia.
      + unfold read_slice in E. destruct (_ <=? _); discriminate.
      + exfalso. apply H1; lia.
    - exists false. split; auto. discriminate.
  Qed.

  Lemma is_close_tag_ok i tag : safe N (fun _ => True) (is_close_tag t i tag).
  Proof.
    unfold is_close_tag. destruct (Nat.ltb_spec (i + length tag + 2) (length t)); [|exact I].
    eapply safe_bind; [apply safe_read_slice; lia|]. intros s _.
    destruct (beq [cSLASH] s); [|exact I].
    eapply safe_bind; [apply safe_read_slice; lia|]. simpl. auto.
  Qed.

  Lemma is_end_tag_ok i tag : safe N (fun _ => True) (is_end_tag t i tag).
  Proof.
    unfold is_end_tag. destruct (_ =? _)%N; simpl andb; [|exact I].
    destruct (Nat.ltb_spec (S (i + length tag + 1)) (length t)); [|exact I].
    eapply safe_bind; [apply safe_read_slice; lia|]. simpl. auto.
  Qed.

  Lemma skip_comment_ok i :
    i + 4 < length t ->
    safe N (fun j => i + 4 < j <= S (length t)) (skip_comment t i).
  Proof.
    intros Hi. unfold skip_comment. eapply safe_bind.
    - apply safe_scan_until; [|lia]. intros k c Hk _ _.
      destruct (c =? cGT)%N; [|exact I].
      destruct (Nat.leb_spec 2 k); [|lia].
      eapply safe_bind; [apply safe_read_slice; lia|]. simpl. auto.
    - simpl. lia.
  Qed.

  Lemma text_continue_ok i c :
    i < length t ->
    safe N (fun b => b = true -> is_fmt c = false /\ c <> cLT /\
              (c = cSP -> 0 < i /\ nth_error t (i - 1) <> Some cSP))
         (text_continue t i c).
  Proof.
    intros Hi. unfold text_continue.
    destruct (is_fmt c); simpl; [discriminate|].
    destruct (N.eqb_spec c cSP) as [->|Hc]; simpl.
    - destruct (Nat.ltb_spec 0 i); [|simpl; discriminate].
      eapply safe_bind; [apply safe_get_char; lia|]. intros p Hp.
      destruct (N.eqb_spec p cSP); simpl; [discriminate|].
      intros _. split; auto. split; [discriminate|]. intros _. split; auto.
      rewrite Hp. congruence.
    - destruct (N.eqb_spec c cLT); simpl; [discriminate|].
      intros _. split; auto. split; auto. congruence.
  Qed.

  Lemma text_continue_det i c :
    i < length t -> exists b, text_continue t i c = Ok b.
  Proof.
    intros Hi. unfold text_continue.
    destruct (is_fmt c); simpl; eauto.
    destruct (N.eqb_spec c cSP) as [->|Hc]; simpl; eauto.
    destruct (Nat.ltb_spec 0 i); eauto.
    pose proof (safe_get_char False t (i - 1)) as Hs.
    unfold get_char in *. destruct (nth_error t (i - 1)) eqn:E; simpl in *.
    - destruct (negb _); eauto.
    - exfalso. apply Hs. lia.
  Qed.

  Lemma text_chunk_ok i c :
    nth_error t i = Some c ->
    (is_blank c = false /\ c <> cLT) \/
    (0 < i /\ nth_error t (i - 1) = Some cLT /\ c <> cLT) ->
    safe N (fun r => let '(s, j) := r in
        i <= j <= length t /\ normP s /\
        (is_fmt c = true \/ i < j) /\
        (is_blank c = false -> exists x s', s = x :: s' /\ x <> cSP))
      (text_chunk t i).
  Proof.
    intros Hc Hpre. pose proof (nth_lt _ _ _ Hc) as Hi. unfold text_chunk.
    assert (Hprev : nth_error t i = Some cSP -> 0 < i -> nth_error t (i - 1) = Some cLT).
    { intros E Hpos. destruct Hpre as [[H _]|[_ [H _]]]; auto.
      rewrite Hc in E. injection E as ->. discriminate. }
    eapply safe_bind.
    { apply safe_scan_until; [|lia]. intros k ck Hk Hck _.
      eapply safe_bind; [apply text_continue_ok; lia|]. simpl. auto. }
    intros j (J1 & J2 & J3 & J4).
    assert (Hj : i <= j <= length t) by lia.
    assert (HC : forall k ck, i <= k < j -> nth_error t k = Some ck ->
              is_fmt ck = false /\ ck <> cLT /\
              (ck = cSP -> 0 < k /\ nth_error t (k - 1) <> Some cSP)).
    { intros k ck Hk Hck. specialize (J3 k ck Hk Hck).
      pose proof (text_continue_ok k ck ltac:(lia)) as Hs.
      destruct (text_continue t k ck) as [b|u|jj|]; simpl in *; try discriminate.
      destruct b; [auto|discriminate]. }
    assert (Hprog : is_fmt c = true \/ i < j).
    { destruct (is_fmt c) eqn:Ef; auto. right.
      destruct (Nat.eq_dec i j) as [->|]; [exfalso|lia].
      specialize (J4 c Hc).
      assert (text_continue t j c = Ok true) as E; [|rewrite E in J4; discriminate].
      unfold text_continue. rewrite Ef. simpl.
      assert (Hlt : c <> cLT) by (destruct Hpre as [[_ H]|(_ & _ & H)]; auto).
      assert (El : (c =? cLT)%N = false) by (now apply N.eqb_neq).
      destruct (N.eqb_spec c cSP) as [Es|Es]; simpl.
      - destruct Hpre as [[H _]|(H1 & H2 & H3)].
        + rewrite Es in H. discriminate.
        + destruct (Nat.ltb_spec 0 j); [|lia].
          unfold get_char. rewrite H2. simpl. now rewrite El.
      - now rewrite El. }
    (* the trim test *)
    assert (Hlast : j = i \/ exists cl, nth_error t (j - 1) = Some cl).
    { destruct (Nat.eq_dec j i); auto. right.
      destruct (nth_error t (j - 1)) eqn:E; eauto.
      apply nth_error_None in E. lia. }
    eapply (safe_bind _ (fun b => (b = true -> 0 < j /\ nth_error t (j - 1) = Some cSP) /\
                                  (b = false -> 0 < j -> nth_error t (j - 1) <> Some cSP))).
    { destruct (Nat.ltb_spec 0 j).
      - eapply safe_bind; [apply safe_get_char; lia|]. intros p Hp. simpl.
        destruct (N.eqb_spec p cSP) as [->|]; split; intros; try discriminate; auto.
        rewrite Hp. congruence.
      - simpl. split; [discriminate|]. intros. lia. }
    intros trim [T1 T2].
    assert (Hnorm : forall len, i + len <= j ->
        (0 < len -> nth_error t (i + len - 1) <> Some cSP) ->
        normP (firstn len (skipn i t))).
    { intros len Hlen Hend m x Hm.
      assert (Lm : m < len).
      { apply nth_lt in Hm. rewrite firstn_length in Hm. lia. }
      rewrite nth_slice in Hm by auto.
      destruct (HC (i + m) x ltac:(lia) Hm) as (F1 & F2 & F3). split; auto.
      intros ->. destruct (F3 eq_refl) as [F4 F5].
      destruct (Nat.eq_dec (S m) len) as [Ee|Ene].
      - exfalso. apply Hend; [lia|]. replace (i + len - 1) with (i + m) by lia. auto.
      - assert (Hs : exists y, nth_error t (i + S m) = Some y).
        { destruct (nth_error t (i + S m)) eqn:E; eauto. apply nth_error_None in E. lia. }
        destruct Hs as [y Hy]. exists y. rewrite nth_slice by lia. split; auto.
        intros ->. destruct (HC (i + S m) cSP ltac:(lia) Hy) as (_ & _ & G).
        destruct (G eq_refl) as [_ G2].
        apply G2. replace (i + S m - 1) with (i + m) by lia. auto. }
    assert (Hhead : forall len, 0 < len -> i + len <= length t -> is_blank c = false ->
        exists x s', firstn len (skipn i t) = x :: s' /\ x <> cSP).
    { intros len Hlen Hle Hb. apply blank_cases in Hb as [Hb _].
      assert (H0 : nth_error (firstn len (skipn i t)) 0 = Some c).
      { rewrite nth_slice by auto. now rewrite Nat.add_0_r. }
      destruct (firstn len (skipn i t)) as [|y l]; [discriminate|].
      simpl in H0. injection H0 as ->. eauto. }
    destruct trim.
    - destruct (T1 eq_refl) as [Hj0 Hsp].
      assert (Hij : i < j).
      { destruct (Nat.eq_dec i j) as [->|]; [|lia].
        destruct Hpre as [[Hb _]|(_ & H2 & _)]; [|rewrite Hsp in H2; discriminate].
        destruct Hprog as [F|]; [|lia]. apply blank_cases in Hb as [_ Hb]. congruence. }
      destruct (j - i) as [|len] eqn:El; [lia|]. cbn [bind].
      eapply safe_bind; [apply safe_read_slice; lia|]. intros s [-> _]. simpl.
      split; [lia|]. split.
      { apply Hnorm; [lia|]. intros Hlen0 Hbad.
        destruct (HC (j - 1) cSP ltac:(lia) Hsp) as (_ & _ & G).
        destruct (G eq_refl) as [_ G2]. apply G2.
        replace (j - 1 - 1) with (i + len - 1) by lia. auto. }
      split; auto. intros Hb. apply Hhead; auto; [|lia].
      destruct len; [|lia]. exfalso.
      assert (j - 1 = i) by lia. rewrite H, Hc in Hsp. injection Hsp as ->. discriminate.
    - specialize (T2 eq_refl). cbn [bind].
      eapply safe_bind; [apply safe_read_slice; lia|]. intros s [-> _]. simpl.
      split; [lia|]. split.
      { apply Hnorm; [lia|]. intros Hlen0.
        replace (i + (j - i) - 1) with (j - 1) by lia. apply T2. lia. }
      split; auto. intros Hb. apply Hhead; auto; [|lia].
      destruct Hprog as [F|]; [|lia]. apply blank_cases in Hb as [_ Hb]. congruence.
  Qed.

  Lemma text_loop_ok special tag fuel : forall raw i,
    (forall c, nth_error t i = Some c -> is_blank c = false) \/
    (raw = None /\ 0 < i /\ nth_error t (i - 1) = Some cLT) ->
    match raw with Some r => normP r | None => True end ->
    length t - i <= fuel ->
    safe N (fun r => let '(s, j) := r in
        i <= j /\ (j <= S (length t) \/ j = i) /\ normP s /\
        (forall c, nth_error t i = Some c -> c <> cLT -> i < j))
      (text_loop fuel t special tag raw i).
  Proof.
    induction fuel as [|f IH]; intros raw i Hpre Hraw Hf.
    - unfold text_loop. destruct (Nat.ltb_spec i (length t)); [lia|]. simpl.
      split; [lia|]. split; [lia|]. split; [destruct raw; auto; apply normP_nil|].
      intros c Hc. apply nth_lt in Hc. lia.
    - cbn [text_loop]. destruct (Nat.ltb_spec i (length t)) as [Hi|Hi].
      2:{ simpl. split; [lia|]. split; [lia|].
          split; [destruct raw; auto; apply normP_nil|].
          intros c Hc. apply nth_lt in Hc. lia. }
      eapply safe_bind; [apply safe_get_char; auto|]. intros c Hc.
      destruct (is_comment_det i) as (cm & Ecm & Hcm).
      rewrite Ecm. cbn [bind].
      (* outcome of the loop body, when the stop test is negative *)
      assert (Body : (c = cLT -> cm = true) ->
        safe N (fun r => let '(s, j) := r in
            i <= j /\ (j <= S (length t) \/ j = i) /\ normP s /\
            (forall c', nth_error t i = Some c' -> c' <> cLT -> i < j))
          (let* cm := (if (c =? cLT)%N then Ok cm else Ok false) in
           let* '(raw, i) :=
            (if (cm : bool) then
               let* j := skip_comment t i in Ok (raw, j)
             else
               let* '(s, j) := text_chunk t i in
               Ok (Some (match raw with
                         | Some r => r ++ [cSP] ++ s
                         | None => s
                         end), j)) in
          let* i := skip_space t i in
          text_loop f t special tag raw i)).
      { intros Hlt.
        eapply (safe_bind _ (fun b : bool => b = true /\ i + 4 < length t \/
                                             b = false /\ c <> cLT)).
        { destruct (N.eqb_spec c cLT) as [->|]; simpl; auto. }
        intros b Hb. destruct b.
        - destruct Hb as [[_ Hb]|[? _]]; [|discriminate].
          rewrite bind_assoc. eapply safe_bind; [apply skip_comment_ok; auto|].
          intros j [Hj1 Hj2]. cbn [bind]. eapply safe_bind; [apply safe_skip_space|].
          intros j' (K1 & K2 & _ & K4).
          eapply safe_imp; [apply (IH raw j' (or_introl K4) Hraw); lia|].
          intros [s j'']. intros (L1 & L2 & L3 & _). split; [lia|]. split; [lia|].
          split; [auto|]. intros; lia.
        - destruct Hb as [[? _]|[_ Hb]]; [discriminate|].
          assert (Hpre' : (is_blank c = false /\ c <> cLT) \/
                  (0 < i /\ nth_error t (i - 1) = Some cLT /\ c <> cLT)).
          { destruct Hpre as [H|(_ & H1 & H2)]; [left|right]; auto. }
          rewrite bind_assoc.
          eapply safe_bind; [apply (text_chunk_ok i c Hc Hpre')|].
          intros [s j] (J1 & J2 & J3 & J4). cbn [bind].
          eapply safe_bind; [apply safe_skip_space|].
          intros j' (K1 & K2 & K3 & K4).
          assert (Hprog : i < j').
          { destruct J3 as [Hfm|]; [|lia].
            destruct (Nat.eq_dec i j'); [|lia]. subst j'.
            assert (j = i) by lia. subst j.
            specialize (K4 c Hc). apply blank_cases in K4 as [_ K4]. congruence. }
          eapply safe_imp; [apply IH; [left; exact K4| |lia]|].
          + destruct raw as [r|]; auto.
            destruct Hpre as [H|(H & _)]; [|discriminate].
            destruct (J4 (H c Hc)) as (x & s' & -> & Hx).
            apply normP_join; auto.
          + intros [s0 j'']. intros (L1 & L2 & L3 & _). split; [lia|]. split; [lia|].
            split; [auto|]. intros; lia. }
      destruct (N.eqb_spec c cLT) as [->|Hne].
      + destruct cm; cbn [negb bind].
        * destruct special.
          -- pose proof (is_close_tag_ok i tag) as Hcl.
             eapply safe_bind; [apply Hcl|]. intros stop _. destruct stop.
             ++ simpl. split; [lia|]. split; [lia|].
                split; [destruct raw; auto; apply normP_nil|]. congruence.
             ++ apply Body. auto.
          -- cbn [bind]. apply Body. auto.
        * simpl. split; [lia|]. split; [lia|].
          split; [destruct raw; auto; apply normP_nil|]. congruence.
      + cbn [bind]. apply Body. congruence.
  Qed.

  Lemma parse_text_node_ok i tag d :
    (forall c, nth_error t i = Some c -> is_blank c = false) \/
    (0 < i /\ nth_error t (i - 1) = Some cLT) ->
    i <= S (length t) ->
    safe N (fun r => let '(id, j, d') := r in
        i <= j <= S (length t) /\
        (forall c, nth_error t i = Some c -> c <> cLT -> i < j) /\
        exists s, normP s /\ text_added d d' id s)
      (parse_text_node t i tag d).
  Proof.
    intros Hpre Hi. unfold parse_text_node.
    eapply safe_bind; [eapply safe_neg; [apply create_node_ok|tauto]|].
    intros [id d1] [E _]. injection E as -> ->.
    eapply safe_bind; [apply text_loop_ok; [|exact I|lia]|].
    { destruct Hpre as [H|[H1 H2]]; auto. }
    intros [s j] (H1 & H2 & H3 & H4).
    unfold set_pay, get_node. simpl. rewrite nth_error_app2, Nat.sub_diag by auto.
    simpl. split; [lia|]. split; auto. exists s. split; auto. split; auto.
    unfold push_node, set_nodes. simpl. now rewrite upd_last.
  Qed.
End Safe.

(** ** Attributes and elements *)
Section Elem.
  Context (t : bytes).
  Let N := ends_quote t.

  Lemma quoted_loop_ok q fuel : forall count i used,
    length t - i <= fuel -> i <= length t ->
    safe N (fun r => let '(u, j) := r in
        i <= j <= length t /\ u = used + (j - i) /\
        (count < 2 -> j = length t \/ i < j) /\
        (count = 0 -> j = length t \/ S i < j))
      (quoted_loop fuel t q count i used).
  Proof.
    induction fuel as [|f IH]; intros count i used Hf Hi; simpl.
    - destruct (Nat.ltb_spec i (length t)); [lia|]. simpl. lia.
    - destruct (Nat.ltb_spec i (length t)); [|simpl; lia].
      eapply safe_bind; [apply safe_get_char; auto|]. intros c Hc.
      destruct (Nat.ltb_spec count 2); [|simpl; lia].
      eapply safe_imp; [apply IH; lia|]. intros [u j] (H1 & H2 & H3 & H4).
      split; [lia|]. split; [lia|]. split; [lia|].
      intros ->. destruct (c =? q)%N; lia.
  Qed.

  Lemma parse_prop_ok i :
    i <= length t ->
    safe N (fun r => let '(s, j) := r in
        i <= j <= length t /\
        (forall c, nth_error t i = Some c -> is_blank c = false -> c <> cGT ->
                   c = cEQ \/ i < j))
      (parse_prop t i).
  Proof.
    intros Hi. unfold parse_prop.
    destruct ((current_char t i =? cSQ)%N || (current_char t i =? cDQ)%N) eqn:Eq.
    - unfold current_char in *.
      destruct (nth_error t i) as [c|] eqn:Hc; [|discriminate].
      assert (Hq : c = cSQ \/ c = cDQ).
      { apply orb_true_iff in Eq as [E|E]; apply N.eqb_eq in E; auto. }
      pose proof (nth_lt _ _ _ Hc) as Hlt.
      eapply safe_bind; [apply quoted_loop_ok; lia|].
      intros [u j] (H1 & H2 & H3 & H4).
      destruct u as [|[|len]].
      + exfalso. lia.
      + simpl. exists (firstn i t), c. split; auto.
        rewrite <- (firstn_skipn i t) at 1. f_equal.
        assert (length t = S i) by lia.
        destruct (skipn i t) as [|x l] eqn:Es.
        { pose proof (skipn_length i t) as Hl. rewrite Es in Hl. simpl in Hl. lia. }
        assert (l = []).
        { pose proof (skipn_length i t) as Hl. rewrite Es in Hl. simpl in Hl.
          destruct l; auto. simpl in Hl. lia. }
        subst l. f_equal.
        rewrite <- (firstn_skipn i t) in Hc.
        rewrite nth_error_app2 in Hc by (rewrite firstn_length; lia).
        rewrite firstn_length, Es in Hc. replace (i - min i (length t)) with 0 in Hc by lia.
        simpl in Hc. congruence.
      + eapply safe_bind; [apply safe_read_slice; lia|]. intros s _. simpl.
        split; [lia|]. intros. right. lia.
    - eapply safe_bind; [apply safe_scan|]. intros j (J1 & J2 & J3 & J4).
      eapply safe_bind; [apply safe_read_slice; lia|]. intros s _. simpl.
      split; [lia|]. intros c Hc Hb Hg.
      destruct (Nat.eq_dec i j) as [<-|]; [|right; lia]. left.
      specialize (J4 c Hc). rewrite Hb in J4. simpl in J4.
      apply orb_true_iff in J4 as [E|E]; apply N.eqb_eq in E; congruence.
  Qed.

  Lemma attr_loop_ok id fuel : forall can i d d0 bs ps,
    attrs_added d0 d id bs ps -> id < length (nodes d0) ->
    i <= length t -> length t - i <= fuel ->
    safe N (fun r => let '(can', j, d') := r in
        i <= j <= length t /\ (can' = true -> can = true) /\
        exists bs' ps', attrs_added d0 d' id bs' ps')
      (attr_loop fuel t id can i d).
  Proof.
    induction fuel as [|f IH]; intros can i d d0 bs ps A Hid Hi Hf; cbn [attr_loop].
    - destruct (Nat.ltb_spec i (length t)); [lia|]. simpl. split; [lia|]. eauto.
    - destruct (Nat.ltb_spec i (length t)) as [Hlt|]; [|simpl; split; [lia|]; eauto].
      eapply safe_bind; [apply safe_get_char; auto|]. intros c Hc.
      destruct (N.eqb_spec c cGT) as [|Hg]; [simpl; split; [lia|]; eauto|].
      eapply (safe_bind _ (fun r => let '(can', j, d') := r in
         i <= j <= length t /\ (can' = true -> can = true) /\
         (is_blank c = true \/ i < j) /\
         exists bs' ps', attrs_added d0 d' id bs' ps')).
      { destruct (N.eqb_spec c cSLASH).
        - simpl. split; [lia|]. split; [discriminate|]. split; [right; lia|]. eauto.
        - destruct (is_blank c) eqn:Eb; cbn [negb].
          + simpl. split; [lia|]. eauto 6.
          + eapply safe_bind; [apply parse_prop_ok; lia|].
            intros [key j] [J1 J2]. specialize (J2 c Hc Eb Hg).
            unfold current_char. destruct (nth_error t j) as [cj|] eqn:Ej.
            * destruct (N.eqb_spec cj cEQ) as [->|Hne].
              -- eapply safe_bind; [apply parse_prop_ok; apply nth_lt in Ej; lia|].
                 intros [v j'] [K1 _].
                 eapply safe_bind.
                 { eapply safe_neg; [apply add_property_ok; [apply A|]|tauto].
                   rewrite (attrs_added_len _ _ _ _ _ A). auto. }
                 intros d' Hd'. simpl. split; [lia|]. split; [auto|].
                 split; [right; lia|]. do 2 eexists.
                 eapply attrs_added_prop; [exact A|exact Hd'].
              -- eapply safe_bind.
                 { eapply safe_neg; [apply add_bool_property_ok; [apply A|]|tauto].
                   rewrite (attrs_added_len _ _ _ _ _ A). auto. }
                 intros d' Hd'. simpl. split; [lia|]. split; [auto|]. split.
                 { right. destruct J2 as [->|]; [|lia].
                   destruct (Nat.eq_dec i j) as [->|]; [|lia].
                   rewrite Hc in Ej. congruence. }
                 do 2 eexists. eapply attrs_added_bool; [exact A|exact Hd'].
            * simpl (0 =? _)%N. eapply safe_bind.
              { eapply safe_neg; [apply add_bool_property_ok; [apply A|]|tauto].
                rewrite (attrs_added_len _ _ _ _ _ A). auto. }
              intros d' Hd'. simpl. split; [lia|]. split; [auto|]. split.
              { right. apply nth_error_None in Ej. lia. }
              do 2 eexists. eapply attrs_added_bool; [exact A|exact Hd']. }
      intros [[can' j] d'] (J1 & J2 & J3 & bs' & ps' & A').
      eapply safe_bind; [apply safe_skip_space|].
      intros j' (K1 & K2 & K3 & K4).
      assert (i < j').
      { destruct J3 as [Hb|]; [|lia]. destruct (Nat.eq_dec i j'); [|lia]. subst j'.
        assert (j = i) by lia. subst j. specialize (K4 c Hc). congruence. }
      eapply safe_imp; [eapply IH; eauto; lia|].
      intros [[can'' j''] d''] (L1 & L2 & L3). split; [lia|]. split; auto.
  Qed.

  (** Tags of elements that cannot have children. *)
  Lemma parse_document_node_ok i d c :
    RegInv d -> nth_error t i = Some c -> is_alpha c = true \/ c = cBANG ->
    safe N (fun r => let '(id, can, tag, j, d') := r in
        i < j <= S (length t) /\
        (can = true -> ~ leaf_tag tag) /\
        exists bs ps, elem_added d d' id tag bs ps)
      (parse_document_node t i (c =? cBANG)%N d).
  Proof.
    intros R Hc Hstart. pose proof (nth_lt _ _ _ Hc) as Hi.
    unfold parse_document_node.
    eapply safe_bind; [eapply safe_neg; [apply create_node_ok|tauto]|].
    intros [id d1] [E _]. injection E as -> ->.
    set (id := length (nodes d)). set (d1 := push_node d (mkNode id TDocument PNone)).
    assert (R1 : RegInv d1) by (apply RegInv_push; auto; discriminate).
    assert (Hcc : (c =? cGT)%N = false /\ is_blank c = false /\ (c =? cSLASH)%N = false).
    { destruct Hstart as [Ha| ->]; [|repeat split].
      unfold is_alpha in Ha. apply orb_true_iff in Ha.
      assert (Hr : (65 <= c)%N).
      { destruct Ha as [Ha|Ha]; apply andb_true_iff in Ha as [Ha _];
          apply N.leb_le in Ha; lia. }
      unfold is_blank, is_fmt, cGT, cSLASH, cSP, cTAB, cNL, cCR.
      repeat match goal with |- context [(c =? ?k)%N] =>
        destruct (N.eqb_spec c k); [lia|] end. auto. }
    destruct Hcc as (C1 & C2 & C3).
    eapply safe_bind; [apply safe_scan|]. intros j (J1 & J2 & J3 & J4).
    assert (Hij : i < j <= length t).
    { destruct (Nat.eq_dec i j) as [<-|]; [|lia].
      specialize (J4 c Hc). rewrite C1, C2 in J4. discriminate. }
    eapply (safe_bind _ (fun b => b = true -> nth_error t (j - 1) = Some cSLASH)).
    { destruct (current_char t j =? cGT)%N; [|simpl; discriminate].
      destruct j as [|j']; [lia|].
      eapply safe_bind; [apply safe_get_char; lia|]. intros p Hp. simpl.
      rewrite Nat.sub_0_r. destruct (N.eqb_spec p cSLASH); [congruence|discriminate]. }
    intros slash Hslash.
    eapply (safe_bind _ (fun r => let '(can, size) := r in
        (can = true -> (c =? cBANG)%N = false) /\ 0 < size <= j - i)).
    { destruct slash.
      - specialize (Hslash eq_refl).
        assert (i < j - 1).
        { destruct (Nat.eq_dec i (j - 1)) as [E|]; [|lia].
          rewrite <- E, Hc in Hslash. injection Hslash as ->. discriminate. }
        destruct (j - i) as [|s] eqn:Es; [lia|]. simpl. split; [discriminate|lia].
      - simpl. split; [|lia]. destruct (c =? cBANG)%N; auto. }
    intros [can size] [Hcan Hsize].
    eapply safe_bind; [apply safe_read_slice; lia|]. intros tag [Etag Ltag].
    eapply safe_bind; [apply safe_skip_space|]. intros j2 (K1 & K2 & _ & _).
    eapply safe_bind.
    { eapply attr_loop_ok; [apply attrs_added_refl, R1| |lia|lia].
      unfold d1, id. simpl. rewrite app_length. simpl. lia. }
    intros [[can2 j3] d2] (L1 & L2 & bs & ps & A).
    destruct A as (R2 & (V1 & V2 & V3 & V4) & X2 & be & pe & G1 & G2 & G3 & G4 & G5 & G6).
    assert (Hn : nth_error (nodes d2) id = Some (mkNode id TDocument PNone)).
    { rewrite V1. unfold d1, id. simpl. rewrite nth_error_app2, Nat.sub_diag; auto. }
    eapply safe_bind; [eapply safe_neg; [apply (set_tag_ok _ id _ d2 _ R2 Hn)|tauto]|].
    intros d3 (R3 & (T1 & T2 & T3) & X3 & B3 & P3 & tg & r & N3 & E3 & F3 & Z3). simpl.
    split; [lia|]. split.
    - intros ->. specialize (L2 eq_refl).
      destruct (is_void tag) eqn:Ev; [discriminate|]. specialize (Hcan L2).
      intros [H|H]; [congruence|].
      assert (H0 : nth_error tag 0 = Some c).
      { rewrite Etag, nth_slice by lia. now rewrite Nat.add_0_r. }
      destruct tag as [|x tg']; [discriminate|]. simpl in *.
      apply N.eqb_neq in Hcan. congruence.
    - exists bs, ps. split; [reflexivity|]. split; [auto|]. split.
      { repeat split; [rewrite T1, V2|rewrite T2, V3|rewrite T3, V4]; reflexivity. }
      split. { eapply regs_ext_trans; [|exact X3]. exact X2. }
      split.
      + exists tg, r. split; [|auto]. rewrite N3, V1. unfold d1. simpl.
        unfold id. now rewrite upd_last.
      + exists be, pe. split; [rewrite B3, G1; reflexivity|].
        split; [rewrite P3, G2; reflexivity|]. split; auto. split; auto.
        assert (Hr : (forall e, In e be -> snd e < length (bool_reg d2)) /\
          (forall e, In e pe -> p_key e < length (key_reg d2) /\
                                p_val e < length (val_reg d2))).
        { apply (attrs_added_in_range d1); auto. }
        destruct Hr as [Hr1 Hr2]. split.
        * rewrite <- G5. apply map_ext_in. intros e He. apply rd_bool_ext; auto.
        * rewrite <- G6. apply map_ext_in. intros e He. destruct (Hr2 e He).
          apply rd_prop_ext; auto.
  Qed.
End Elem.

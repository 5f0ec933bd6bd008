(** * Selectors that are rejected as invalid. *)
From Coq Require Import List NArith Arith Bool Lia.
From Verif Require Import Base TrieModel DomModel ParserModel EditModel DomSpec ApiSpec MsiModel QueryModel
  Lemmas ParseSafe GrammarScan QueryTotal.
Import ListNotations.
Local Open Scope nat_scope.

Lemma in_nth_some {A} (t : list A) k c : nth_error t k = Some c -> In c t.
Proof. apply nth_error_In. Qed.

Lemma scan_to_end t stop i : i <= length t ->
  (forall c, In c (skipn i t) -> stop c = false) -> scan t stop i = Ok (length t).
Proof.
  intros Hi H. destruct (good_scan t stop i Hi) as (j & E & Hj & _ & Hs). rewrite E. f_equal.
  destruct (Nat.eq_dec j (length t)) as [|Hne]; auto.
  destruct (nth_error t j) as [c|] eqn:En.
  - specialize (Hs c eq_refl). rewrite (H c) in Hs; [discriminate|].
    rewrite <- (firstn_skipn i t) in En. rewrite nth_error_app2 in En by (rewrite firstn_length; lia).
    eapply nth_error_In; eauto.
  - apply nth_error_None in En. lia.
Qed.

Section Bad.
  Context (lo : nat -> nat) (d : dom) (tok : bytes).
  Context (H : forall c, In c tok -> c <> cCOMMA /\ c <> cEQ /\ c <> cRB /\ c <> cDOT /\ c <> cHASH).
  Let t := cLB :: tok.

  Lemma bad_token j : j <= length t -> exists s, parse_token t j = Ok (s, length t).
  Proof.
    intros Hj. unfold parse_token.
    destruct (good_scan t (fun c => is_blank c || (c =? cEQ)%N || (c =? cRB)%N) j Hj) as (k & -> & Hk & _).
    cbn [bind]. destruct (good_slice t j (k - j)) as (s & -> & _); [lia|]. cbn [bind].
    rewrite scan_to_end; [cbn [bind]; eauto|lia|].
    intros c Hc. assert (Hin : In c t) by (rewrite <- (firstn_skipn k t); apply in_or_app; auto).
    destruct Hin as [<-|Hin]; [reflexivity|]. apply H in Hin as (_ & H1 & H2 & H3 & H4).
    apply N.eqb_neq in H1, H2, H3, H4. now rewrite H1, H2, H3, H4.
  Qed.

  Lemma bad_results s : query_results lo t d s = Ok (QInvalid, s).
  Proof.
    unfold query_results.
    assert (E0 : scan t (fun c => is_elem_start c || (c =? cLB)%N || (c =? cSTAR)%N) 0 = Ok 0).
    { unfold t, scan. simpl. reflexivity. }
    rewrite E0. cbn [bind]. cbn [query_loop]. unfold t at 1. cbn [length Nat.ltb Nat.leb].
    assert (E1 : parse_head t d 0 [] = Ok (inr ([], 0))) by reflexivity.
    rewrite E1. cbn [bind].
    assert (E2 : filters_loop (S (length t)) t d 0 [] = Ok (inr ([], length t))).
    { cbn [filters_loop]. assert (0 <? length t = true) as -> by reflexivity.
      assert (get_char t 0 = Ok cLB) as -> by reflexivity. cbn [bind].
      assert ((cLB =? cLB)%N || (cLB =? cDOT)%N || (cLB =? cHASH)%N = true) as -> by reflexivity.
      assert (max_filters <=? length (@nil filt) = false) as -> by reflexivity.
      assert (E3 : parse_filter t d 0 cLB = Ok (inr (None, length t))).
      { unfold parse_filter.
        destruct (good_scan t is_tag_start 0) as (j & -> & Hj & _); [lia|]. cbn [bind].
        destruct (bad_token j) as [s0 ->]; [lia|]. cbn [bind].
        assert (current_char t (length t) = 0%N) as ->.
        { unfold current_char. now rewrite (proj2 (nth_error_None t (length t))). }
        reflexivity. }
      rewrite E3. cbn [bind]. unfold t at 1. cbn [filters_loop length].
      rewrite Nat.ltb_irrefl. reflexivity. }
    rewrite E2. reflexivity.
  Qed.

  Lemma bad_query : query_selector_all lo t d = Ok (QInvalid, []).
  Proof.
    unfold query_selector_all. cbn [parts_loop]. unfold t at 1. cbn [length Nat.ltb Nat.leb].
    rewrite scan_to_end; [|lia|].
    - cbn [bind]. rewrite Nat.sub_0_r. destruct (good_slice t 0 (length t)) as (s & E & Es & _); [lia|].
      rewrite E. cbn [bind]. rewrite Es. simpl skipn. rewrite firstn_all. rewrite bad_results. reflexivity.
    - simpl skipn. intros c [<-|Hc]; [reflexivity|]. apply N.eqb_neq. now apply H in Hc.
  Qed.
End Bad.

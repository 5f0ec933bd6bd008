(** * The query functions return normally on every byte string. *)
From Coq Require Import List NArith Arith Bool Lia Permutation.
From Verif Require Import Base TrieModel DomModel ParserModel DomSpec ApiSpec MsiModel QueryModel QuerySpec
  Lemmas TrieProofs Tables Inv RegProofs ParseTree MsiProofs UsetProofs QueryProofs AttrProofs.
Import ListNotations.
Local Open Scope nat_scope.

(** The call returns normally, with [Q]. *)
Definition good {A} (Q : A -> Prop) (o : outcome A) : Prop := exists a, o = Ok a /\ Q a.
Lemma good_ok {A} (Q : A -> Prop) a : Q a -> good Q (Ok a).
Proof. intros H. exists a. auto. Qed.
Lemma good_bind {A B} (P : A -> Prop) (Q : B -> Prop) x f :
  good P x -> (forall a, P a -> good Q (f a)) -> good Q (bind x f).
Proof. intros (a & -> & Pa) H. exact (H a Pa). Qed.
Lemma good_imp {A} (P Q : A -> Prop) x : good P x -> (forall a, P a -> Q a) -> good Q x.
Proof. intros (a & E & Pa) H. exists a. auto. Qed.

Lemma scan_until_nojump fuel t stop i : (forall k c, exists b, stop k c = Ok b) ->
  forall j, scan_until fuel t stop i <> Longjmp j.
Proof.
  intros H j. revert i. induction fuel as [|f IH]; intros i; simpl;
    (destruct (i <? length t); [|discriminate]);
    unfold get_char; (destruct (nth_error t i); [|discriminate]); cbn [bind];
    destruct (H i n) as ([] & ->); cbn [bind]; try discriminate. apply IH.
Qed.
Lemma good_scan t stop i : i <= length t ->
  good (fun j => i <= j <= length t /\
          (forall k c, i <= k < j -> nth_error t k = Some c -> stop c = false) /\
          (forall c, nth_error t j = Some c -> stop c = true)) (scan t stop i).
Proof.
  intros L. pose proof (safe_scan False t stop i) as S. apply safe_get in S as [(j & E & H)|[(j & E)|[_ []]]].
  - exists j. split; [exact E|]. destruct H as (A & B & C & D). split; [lia|auto].
  - exfalso. unfold scan in E. eapply scan_until_nojump; [|exact E]. intros. eauto.
Qed.
Lemma good_slice t i n : i + n <= length t -> good (fun s => s = firstn n (skipn i t) /\ length s = n) (read_slice t i n).
Proof.
  intros L. pose proof (safe_read_slice False t i n L) as S. unfold read_slice in *.
  destruct (_ <=? _); [|contradiction]. eexists. split; [reflexivity|exact S].
Qed.
Lemma good_char t i : i < length t -> good (fun c => nth_error t i = Some c) (get_char t i).
Proof.
  intros L. unfold get_char. destruct (nth_error t i) eqn:E; [now exists n|].
  apply nth_error_None in E. lia.
Qed.
Lemma good_lookup s reg m : reg_ok reg m -> good (fun _ => True) (map_contains s m).
Proof. intros (l & _ & H). rewrite (map_contains_ok s m l H). now exists (lookup s l). Qed.

Lemma current_char_at t i c : nth_error t i = Some c -> current_char t i = c.
Proof. unfold current_char. now intros ->. Qed.

Section Total.
  Context (lo : nat -> nat) (d : dom) (k : kids) (G : Good d k).
  Context (LN : (N.of_nat (length (nodes d)) <= 65535)%N).

  Lemma good_token t i : i <= length t ->
    good (fun '(_, j) => i <= j <= length t) (parse_token t i).
  Proof.
    intros L. unfold parse_token.
    eapply good_bind; [apply good_scan; exact L|]. intros j (Hj & _).
    eapply good_bind; [apply good_slice; lia|]. intros tok _.
    eapply good_bind; [apply good_scan; lia|]. intros j' (Hj' & _).
    apply good_ok. lia.
  Qed.

  Lemma good_filter t i ch : nth_error t i = Some ch ->
    (ch = cLB \/ ch = cDOT \/ ch = cHASH) ->
    good (fun r => match r with inl _ => True | inr (_, j) => i < j <= length t end) (parse_filter t d i ch).
  Proof.
    intros Hc K. pose proof (g_reg _ _ G) as R.
    assert (L : i < length t) by (apply nth_error_Some; congruence).
    assert (NT : is_tag_start ch = false) by (destruct K as [->|[->| ->]]; reflexivity).
    unfold parse_filter.
    eapply good_bind; [apply good_scan; lia|]. intros j (Hj & _ & Hs).
    assert (i < j).
    { destruct (Nat.eq_dec i j) as [<-|]; [|lia]. apply Hs in Hc. congruence. }
    eapply good_bind; [apply good_token; lia|]. intros [tok j1] H1.
    assert (X : current_char t j1 = cRB \/ current_char t j1 = cEQ -> j1 < length t).
    { intros E. destruct (nth_error t j1) eqn:E1; [apply nth_error_Some; congruence|].
      unfold current_char in E. rewrite E1 in E. destruct E; discriminate. }
    destruct ((ch =? cDOT)%N || (ch =? cHASH)%N).
    - eapply good_bind; [eapply good_lookup, (ri_key _ R)|]. intros kk _.
      destruct (kk =? 0); [now apply good_ok|].
      eapply good_bind; [eapply good_lookup, (ri_val _ R)|]. intros v _.
      destruct (v =? 0); [now apply good_ok|]. apply good_ok.
      destruct (current_char t j1 =? cRB)%N eqn:E; [|lia]. apply N.eqb_eq in E.
      specialize (X (or_introl E)). lia.
    - destruct (current_char t j1 =? cRB)%N eqn:E.
      + apply N.eqb_eq in E. specialize (X (or_introl E)).
        eapply good_bind; [eapply good_lookup, (ri_bool _ R)|]. intros b _.
        destruct (b =? 0); [now apply good_ok|]. apply good_ok. lia.
      + destruct (current_char t j1 =? cEQ)%N eqn:E'; [|apply good_ok; lia].
        apply N.eqb_eq in E'. specialize (X (or_intror E')).
        eapply good_bind; [eapply good_lookup, (ri_key _ R)|]. intros kk _.
        destruct (kk =? 0); [now apply good_ok|].
        eapply good_bind; [apply good_scan; lia|]. intros j2 (Hj2 & _).
        eapply good_bind; [apply good_token; lia|]. intros [val j3] H3.
        eapply good_bind; [eapply good_lookup, (ri_val _ R)|]. intros v _.
        destruct (v =? 0); [now apply good_ok|]. apply good_ok.
        destruct (current_char t j3 =? cRB)%N eqn:E3; [|lia]. apply N.eqb_eq in E3.
        destruct (nth_error t j3) eqn:E4; [assert (j3 < length t) by (apply nth_error_Some; congruence); lia|].
        unfold current_char in E3. rewrite E4 in E3. discriminate.
  Qed.

  Lemma good_filters t : forall fuel i fs, i <= length t -> length t - i < fuel ->
    length fs <= max_filters ->
    good (fun r => match r with inl _ => True
                   | inr (fs', j) => i <= j <= length t /\ length fs' <= max_filters /\ (fs' <> fs -> i < j) end)
         (filters_loop fuel t d i fs).
  Proof.
    induction fuel as [|f IH]; intros i fs L F M; [lia|]. cbn [filters_loop].
    destruct (i <? length t) eqn:Li.
    - apply Nat.ltb_lt in Li. eapply good_bind; [apply good_char; exact Li|]. intros ch Hc.
      destruct ((ch =? cLB)%N || (ch =? cDOT)%N || (ch =? cHASH)%N) eqn:K.
      + destruct (max_filters <=? length fs) eqn:Mx; [now apply good_ok|]. apply Nat.leb_gt in Mx.
        eapply good_bind; [apply good_filter; [exact Hc|]|].
        * apply orb_true_iff in K as [K|K]; [apply orb_true_iff in K as [K|K]|]; apply N.eqb_eq in K; auto.
        * intros [st|[[x|] j]] Hj; [now apply good_ok| |].
          -- unfold push_filter. replace (length fs <? max_filters) with true by (symmetry; now apply Nat.ltb_lt).
             cbn [bind]. eapply good_imp; [apply IH|].
             ++ lia.
             ++ lia.
             ++ rewrite app_length. simpl. lia.
             ++ intros [st|[fs' j']]; [auto|]. intros (A & B & C). repeat split; try lia; auto.
          -- eapply good_imp; [apply IH; lia|]. intros [st|[fs' j']]; [auto|].
             intros (A & B & C). repeat split; try lia; auto.
      + apply good_ok. repeat split; auto; try lia. congruence.
    - apply good_ok. repeat split; auto; try lia. congruence.
  Qed.

  Lemma good_head t i : i < length t ->
    good (fun r => match r with inl _ => True
                   | inr (fs', j) => i <= j <= length t /\ length fs' <= max_filters /\ (fs' <> [] -> i < j) end)
         (parse_head t d i []).
  Proof.
    intros L. pose proof (g_reg _ _ G) as R.
    destruct (nth_error t i) as [ch|] eqn:Hc; [|apply nth_error_None in Hc; lia].
    unfold parse_head. rewrite (current_char_at _ _ _ Hc).
    assert (Adv : forall j, i <= j <= length t -> (is_tag_start ch = true \/ ch = cSTAR) ->
       (forall c, nth_error t j = Some c -> end_of_filter c = true) -> i < j).
    { intros j Hj K H. destruct (Nat.eq_dec i j) as [<-|]; [|lia]. apply H in Hc. exfalso.
      destruct K as [K| ->]; [|discriminate]. revert Hc K.
      unfold end_of_filter, is_spec_comb, is_fmt, is_tag_start.
      rewrite !orb_true_iff, !N.eqb_eq. intros Hc.
      destruct (is_alpha ch) eqn:A.
      - intros _. repeat destruct Hc as [Hc|Hc]; subst; discriminate.
      - intros [X|X]; [discriminate|]. subst ch.
        repeat destruct Hc as [Hc|Hc]; discriminate. }
    destruct (is_tag_start ch) eqn:T.
    - cbn [length max_filters Nat.leb].
      eapply good_bind; [apply good_scan; lia|]. intros j (Hj & _ & Hs).
      eapply good_bind; [apply good_slice; lia|]. intros tag _.
      eapply good_bind; [eapply good_lookup, (ri_tag _ R)|]. intros id _.
      destruct (id =? 0); [now apply good_ok|]. cbn. apply good_ok.
      split; [exact Hj|]. split; [unfold max_filters; simpl; lia|]. intros _. apply Adv; auto.
    - destruct (ch =? cSTAR)%N eqn:E.
      + cbn [length max_filters Nat.leb]. apply N.eqb_eq in E.
        eapply good_bind; [apply good_scan; lia|]. intros j (Hj & _ & Hs). cbn. apply good_ok.
        split; [exact Hj|]. split; [unfold max_filters; simpl; lia|]. intros _. apply Adv; auto.
      + apply good_ok. split; [lia|]. split; [unfold max_filters; simpl; lia|]. congruence.
  Qed.

  Lemma good_comb t : forall fuel i c, i <= length t -> length t - i <= fuel -> c <> CNone ->
    good (fun '(c', j) => i <= j <= length t /\ c' <> CNone) (comb_loop fuel t i c).
  Proof.
    induction fuel as [|f IH]; intros i c L F C; cbn [comb_loop];
      (destruct (i <? length t) eqn:Li; [apply Nat.ltb_lt in Li|apply good_ok; split; [lia|exact C]]); [lia|].
    eapply good_bind; [apply good_char; exact Li|]. intros ch _.
    destruct (_ || _); [apply good_ok; split; [lia|exact C]|].
    eapply good_imp; [apply IH|]; try lia.
    - destruct (ch =? cGT)%N; [discriminate|]. destruct (ch =? cPLUS)%N; [discriminate|].
      destruct (ch =? cTILDE)%N; [discriminate|exact C].
    - intros [c' j]. intros [A B]. split; [lia|exact B].
  Qed.

  (** Every loop state: a well-formed set; the first step starts from an empty one. *)
  Lemma good_query t : forall fuel i c s ph P, i <= length t -> length t - i < fuel ->
    holds ph s P -> (c = CNone -> ph = 0 /\ forall n, ~ P n) ->
    (forall n, P n -> n <> 0 /\ n < length (nodes d)) ->
    good (fun '(_, s') => exists ph' Q, holds ph' s' Q /\ forall n, Q n -> n <> 0 /\ n < length (nodes d))
         (query_loop fuel lo t d i c s).
  Proof.
    induction fuel as [|f IH]; intros i c s ph P L F H HC HP; [lia|]. cbn [query_loop].
    assert (Out : forall st : qstatus, good (fun '(_, s') => exists ph' Q, holds ph' s' Q /\ forall n, Q n -> n <> 0 /\ n < length (nodes d)) (Ok (st, s))).
    { intros st. apply good_ok. exists ph, P. auto. }
    destruct (i <? length t) eqn:Li; [|apply Out]. apply Nat.ltb_lt in Li.
    eapply good_bind; [apply good_head; exact Li|]. intros [st|[fs j]] Hj; [apply Out|].
    destruct Hj as (Hj & Mf & Adv).
    eapply good_bind; [apply good_filters; lia|]. intros [st|[fs' j']]; [intros _; apply Out|].
    intros (Hj' & Mf' & Adv').
    destruct fs' as [|x fs0] eqn:Ef; [apply Out|]. rewrite <- Ef in *.
    assert (i < j').
    { destruct fs as [|y fs]; [|specialize (Adv ltac:(discriminate)); lia].
      specialize (Adv' ltac:(congruence)). lia. }
    destruct (q_step_ok lo d k G LN c fs' ph s P H HC) as (s1 & p1 & E1 & H1).
    rewrite E1. cbn [bind].
    eapply good_bind; [apply good_comb; [lia|lia|discriminate]|]. intros [c' i'] [Hi Hc'].
    eapply IH; [lia|lia|exact H1|congruence|].
    intros n [_ Hn]. destruct c; cbn [comb_rel related] in Hn.
    - lia.
    - destruct Hn as (m & Pm & E & N0). destruct (HP m Pm) as [Nm _].
      destruct (next_chain d k G LN m Nm) as (l & Sl & _ & Bl).
      apply Bl. inversion Sl; [congruence|]. subst. now left.
    - destruct Hn as (m & _ & E & _). eapply elem_nz; eauto.
    - destruct Hn as (m & Pm & A). destruct (HP m Pm) as [Nm _].
      destruct (next_chain d k G LN m Nm) as (l & Sl & _ & Bl). apply Bl.
      now apply (after_in_chain d m l Sl).
    - destruct Hn as (m & _ & U). destruct U; eapply elem_nz; eauto.
  Qed.

  Lemma insert_each_ok l : forall ph s P, holds ph s P -> (forall x, In x l -> x <> 0 /\ x < length (nodes d)) ->
    exists s' ph', insert_each l s = Ok s' /\ ph' <= ph /\ holds ph' s' (fun n => P n \/ In n l).
  Proof.
    induction l as [|v l IH]; intros ph s P H B; simpl.
    - exists s, ph. split; [reflexivity|]. split; [lia|]. eapply holds_ext; [exact H|]. tauto.
    - destruct (B v (or_introl eq_refl)) as [Nv Lv]. destruct H as [O E].
      destruct (u_insert_ok s ph v O Nv) as (b & s1 & p1 & E1 & O1 & L1 & _ & X1); [lia|].
      rewrite E1. cbn [bind].
      destruct (IH p1 s1 (fun n => P n \/ n = v)) as (s2 & p2 & E2 & L2 & H2).
      + split; [exact O1|]. intros n. rewrite X1, E. tauto.
      + intros x Hx. apply B. now right.
      + exists s2, p2. split; [exact E2|]. split; [lia|]. eapply holds_ext; [exact H2|].
        intros n. cbv beta. intuition.
  Qed.

  Lemma good_results t s : holds 0 s (fun _ => False) ->
    good (fun '(_, s') => exists ph' Q, holds ph' s' Q /\ forall n, Q n -> n <> 0 /\ n < length (nodes d))
      (query_results lo t d s).
  Proof.
    intros H. unfold query_results.
    eapply good_bind; [apply good_scan; lia|]. intros i (Hi & _).
    eapply good_query; [lia|lia|exact H|auto|tauto].
  Qed.

  Lemma good_parts css : forall fuel from set res P, length css - from < fuel ->
    holds 0 set (fun _ => False) -> holds 0 res P -> (forall n, P n -> n <> 0 /\ n < length (nodes d)) ->
    good (fun '(_, r) => exists Q, holds 0 r Q /\ forall n, Q n -> n <> 0 /\ n < length (nodes d))
      (parts_loop fuel lo css d from set res).
  Proof.
    induction fuel as [|f IH]; intros from set res P F Hs Hr HP; [lia|]. cbn [parts_loop].
    destruct (from <? length css) eqn:Li; [apply Nat.ltb_lt in Li|apply good_ok; exists P; auto].
    eapply good_bind; [apply good_scan; lia|]. intros j (Hj & _).
    eapply good_bind; [apply good_slice; lia|]. intros iter (_ & Li').
    eapply good_bind; [apply good_results; exact Hs|]. intros [st s'] (ph & Q & HQ & BQ).
    destruct st; try (apply good_ok; exists P; auto; fail).
    destruct (insert_each_ok (u_elems s') 0 res P Hr) as (r' & p' & E & Lp & H').
    - intros x Hx. apply BQ. now apply (proj2 HQ).
    - rewrite E. cbn [bind]. assert (p' = 0) by lia. subst p'.
      eapply IH; [lia|eapply holds_reset; exact HQ|exact H'|].
      intros n [Pn|Hn]; [auto|]. apply BQ. now apply (proj2 HQ).
  Qed.

  Lemma good_all css :
    good (fun '(st, l) => NoDup l /\ (st <> QSuccess -> l = []) /\ forall n, In n l -> n <> 0 /\ n < length (nodes d))
      (query_selector_all lo css d).
  Proof.
    unfold query_selector_all.
    eapply good_bind.
    - apply (good_parts css (S (length css)) 0 (u_new start_exp) (u_new start_exp) (fun _ => False)); [lia| | |tauto];
        apply holds_new; unfold start_exp; lia.
    - intros [st r] (Q & [O E] & B). destruct st; try (apply good_ok; split; [constructor|]; split; [auto|]; simpl; tauto).
      rewrite (u_array_ok r 0 O). cbn [bind repeat]. rewrite app_nil_r. apply good_ok.
      split; [apply u_nodup, (uo_wf _ _ O)|]. split; [congruence|]. intros n Hn. apply B. now apply E.
  Qed.
End Total.

(** * The scanning functions of the parser agree with the reference reader. *)
From Coq Require Import List NArith Arith Bool Lia.
From Verif Require Import Base TrieModel DomModel ParserModel DomSpec GrammarSpec ReaderSpec
  Lemmas TrieProofs Inv RegProofs ParseSafe GrammarScan GrammarText GrammarTag.
Import ListNotations.
Local Open Scope nat_scope.

Lemma skip_blanks_dropb r : skip_blanks r = dropb r.
Proof. reflexivity. Qed.

Lemma span_app p r : r = fst (span p r) ++ snd (span p r).
Proof.
  induction r as [|c r IH]; simpl; auto. destruct (p c); simpl; auto. now rewrite <- IH.
Qed.
Lemma span_all p r : forall c, In c (fst (span p r)) -> p c = true.
Proof.
  induction r as [|c r IH]; simpl; [tauto|]. destruct (p c) eqn:E; simpl; [|tauto].
  intros x [<-|Hx]; auto.
Qed.
Lemma span_stop p r : match snd (span p r) with [] => True | c :: _ => p c = false end.
Proof. induction r as [|c r IH]; simpl; auto. destruct (p c) eqn:E; simpl; auto. Qed.
Lemma span_len p r : length (fst (span p r)) + length (snd (span p r)) = length r.
Proof. rewrite (span_app p r) at 3. now rewrite app_length. Qed.
Lemma span_ext p q r : (forall c, p c = q c) -> span p r = span q r.
Proof. intros H. induction r as [|c r IH]; simpl; auto. rewrite H, IH. reflexivity. Qed.

Lemma starts_iff p r : starts p r = true <-> exists s, r = p ++ s.
Proof.
  revert r; induction p as [|a p IH]; intros r; simpl.
  - split; eauto.
  - destruct r as [|c r].
    + split; [discriminate|intros [s E]; discriminate].
    + rewrite andb_true_iff, N.eqb_eq, IH. split.
      * intros [-> [s ->]]. eauto.
      * intros [s E]. injection E as -> ->. eauto.
Qed.
Lemma starts_beq p r : length p <= length r -> starts p r = beq p (firstn (length p) r).
Proof.
  revert r; induction p as [|a p IH]; intros r H; simpl; auto.
  destruct r as [|c r]; simpl in *; [lia|]. rewrite IH by lia. reflexivity.
Qed.

(** [r] is what remains from position [i] on; positions behind the end count as
    the end. *)
Definition att (t : bytes) (i : nat) (r : bytes) : Prop := suf t i r \/ (length t < i /\ r = []).
Lemma att_skip t i r : att t i r ->
  exists j, skip_space t i = Ok j /\ att t j (dropb r) /\ i <= j.
Proof.
  intros [H|[H ->]].
  - destruct (suf_skip _ _ _ H) as (j & E & S & L). exists j. split; auto. split; auto. left. auto.
  - exists i. split.
    + assert (E : (i <? length t) = false) by (apply Nat.ltb_ge; lia).
      unfold skip_space, scan. generalize (length t) at 1. intros n. destruct n; cbn [scan_until]; rewrite E; auto.
    + split; [right; auto|lia].
Qed.
Lemma att_cons t i c r : att t i (c :: r) -> suf t i (c :: r).
Proof. intros [H|[_ H]]; [auto|discriminate]. Qed.
Lemma att_nil t i : att t i [] -> (i <? length t) = false.
Proof.
  intros [H|[H _]]; [apply suf_nil in H; tauto|]. apply Nat.ltb_ge. lia.
Qed.
Lemma att_len t i r : att t i r -> length r <= length t - i.
Proof. intros [H|[H ->]]; [apply suf_len in H; lia|simpl; lia]. Qed.

Section Scan.
  Context (t : bytes).

  Lemma suf_skipn i r : suf t i r -> skipn i t = r.
  Proof. intros (pre & -> & <-). now rewrite skipn_app, skipn_all, Nat.sub_diag. Qed.
  Lemma suf_read i r n : suf t i r -> n <= length r -> read_slice t i n = Ok (firstn n r).
  Proof.
    intros H Hn. unfold read_slice. rewrite (suf_skipn i r H). apply suf_len in H.
    destruct (Nat.leb_spec (i + n) (length t)); [auto|lia].
  Qed.
  Lemma suf_tl i r n : suf t i r -> n <= length r -> suf t (i + n) (skipn n r).
  Proof.
    intros H Hn. rewrite <- (firstn_skipn n r) in H. apply suf_app in H.
    rewrite firstn_length, Nat.min_l in H by auto. exact H.
  Qed.

  Lemma ref_comment i c r : suf t i (c :: r) -> c = cLT -> is_comment t i = Ok (at_comment (c :: r)).
  Proof.
    intros H ->. unfold is_comment, at_comment. pose proof (suf_len _ _ _ H) as L. simpl length in *.
    assert (E : (4 <? S (length r)) = (i + 4 <? length t)).
    { destruct (Nat.ltb_spec 4 (S (length r))), (Nat.ltb_spec (i + 4) (length t)); auto; lia. }
    rewrite E. destruct (Nat.ltb_spec (i + 4) (length t)) as [Hl|]; [|now rewrite andb_false_r].
    rewrite andb_true_r. rewrite Nat.add_1_r. apply suf_cons in H.
    rewrite (suf_read (S i) r 3 H) by lia. cbn [bind]. cbn [starts]. rewrite N.eqb_refl. cbn [andb].
    f_equal. symmetry. apply (starts_beq s_comment r). simpl. lia.
  Qed.
  Lemma at_comment_lt c r : at_comment (c :: r) = true -> c = cLT.
  Proof.
    unfold at_comment. intros H. apply andb_true_iff in H as [H _]. cbn [starts] in H.
    apply andb_true_iff in H as [H _]. now apply N.eqb_eq in H.
  Qed.

  (** The scan for the end of a comment, two bytes behind. *)
  Let stopc := fun (k : nat) (c : N) =>
     if (c =? cGT)%N then
       let* s := (if 2 <=? k then read_slice t (k - 2) 2 else Undef OobRead) in Ok (beq s_dashes s)
     else Ok false.
  Lemma ref_dashes : forall r a b i fuel, suf t i (a :: b :: r) -> length r <= fuel ->
    exists j, scan_until fuel t stopc (S (S i)) = Ok j /\ att t (S j) (after_dashes (a :: b :: r)) /\ i < j.
  Proof.
    induction r as [|c r IH]; intros a b i fuel H Hf.
    - pose proof (suf_len _ _ _ H) as L. simpl in L. exists (S (S i)). split; [|split; [|lia]].
      + assert (E : (S (S i) <? length t) = false) by (apply Nat.ltb_ge; lia).
        destruct fuel; cbn [scan_until]; rewrite E; reflexivity.
      + right. split; [lia|]. unfold after_dashes. cbn [starts].
        rewrite !andb_false_r. reflexivity.
    - pose proof (suf_cons _ _ _ _ (suf_cons _ _ _ _ H)) as Hc.
      destruct (suf_get _ _ _ _ Hc) as (G1 & _ & _ & G2 & _).
      assert (Es : stopc (S (S i)) c = Ok (starts [cDASH; cDASH; cGT] (a :: b :: c :: r))).
      { unfold stopc. cbn [starts]. rewrite andb_true_r. rewrite (N.eqb_sym c cGT).
        destruct (cGT =? c)%N; [|now rewrite !andb_false_r].
        rewrite !andb_true_r. change (2 <=? S (S i)) with true.
        replace (S (S i) - 2) with i by lia. rewrite (suf_read i _ 2 H) by (simpl; lia).
        cbn [bind firstn]. f_equal. change s_dashes with [cDASH; cDASH]. cbn [beq]. now rewrite andb_true_r. }
      cbn [after_dashes]. destruct (starts [cDASH; cDASH; cGT] (a :: b :: c :: r)) eqn:E.
      + exists (S (S i)). split; [|split; [|lia]].
        * destruct fuel; cbn [scan_until]; rewrite G2, G1; cbn [bind]; rewrite Es; reflexivity.
        * left. cbn [skipn]. eapply suf_cons; eauto.
      + destruct fuel as [|f]; [simpl in Hf; lia|].
        cbn [scan_until]. rewrite G2, G1. cbn [bind]. rewrite Es. cbn [bind].
        destruct (IH b c (S i) f (suf_cons _ _ _ _ H)) as (j & Ej & Aj & Lj); [simpl in Hf; lia|].
        exists j. split; auto. split; [exact Aj|lia].
  Qed.
  Lemma ref_skip_comment i r : suf t i r -> at_comment r = true ->
    exists j, skip_comment t i = Ok j /\ att t j (after_comment r) /\ i < j.
  Proof.
    intros H E. unfold at_comment in E. apply andb_true_iff in E as [E L].
    apply starts_iff in E as [s ->]. simpl in H, L. unfold skip_comment.
    pose proof (suf_len _ _ _ H) as Ln. simpl in Ln.
    destruct (ref_dashes s cDASH cDASH (i + 2) (length t)) as (j & Ej & Aj & Lj).
    - rewrite Nat.add_comm. simpl. apply suf_cons with (c := cBANG). eapply suf_cons; eauto.
    - lia.
    - replace (S (S (i + 2))) with (i + 4) in Ej by lia.
      exists (S j). split; [unfold stopc in Ej; rewrite Ej; reflexivity|]. split; [exact Aj|lia].
  Qed.

  Lemma ref_end_tag i c r name : suf t i (c :: r) -> c = cLT ->
    is_end_tag t i name = Ok (at_end_tag name (c :: r)).
  Proof.
    intros H ->. unfold is_end_tag, at_end_tag. pose proof (suf_len _ _ _ H) as L. simpl in L.
    pose proof (suf_cons _ _ _ _ H) as H1.
    cbn [starts]. rewrite N.eqb_refl. cbn [andb].
    destruct r as [|c1 r].
    - destruct (suf_nil _ _ H1) as (_ & -> & _). reflexivity.
    - destruct (suf_get _ _ _ _ H1) as (_ & -> & _). rewrite (N.eqb_sym c1 cSLASH).
      destruct (cSLASH =? c1)%N; [|reflexivity]. cbn [andb].
      apply suf_cons in H1. simpl in L.
      destruct (Nat.ltb_spec (S i + length name + 1) (length t)) as [Hl|Hl].
      + rewrite (suf_read _ _ (length name) H1) by lia. cbn [bind].
        assert (2 + length name <? length (cLT :: c1 :: r) = true) as ->
          by (apply Nat.ltb_lt; simpl; lia).
        rewrite andb_true_r, starts_beq by lia. f_equal.
        destruct (beq (firstn (length name) r) name) eqn:E; symmetry.
        * apply beq_eq in E. now apply beq_eq.
        * apply not_true_iff_false. intros X. apply beq_eq in X. rewrite <- X in E.
          rewrite X in E at 1. rewrite <- X in E. rewrite (proj2 (beq_eq name name) eq_refl) in E. discriminate.
      + assert (2 + length name <? length (cLT :: c1 :: r) = false) as ->
          by (apply Nat.ltb_ge; simpl; lia).
        now rewrite andb_false_r.
  Qed.
  Lemma at_end_tag_lt name c r : at_end_tag name (c :: r) = true -> c = cLT.
  Proof.
    unfold at_end_tag. intros H. apply andb_true_iff in H as [H _]. cbn [starts] in H.
    apply andb_true_iff in H as [H _]. now apply N.eqb_eq in H.
  Qed.

  Lemma ref_scan i r p : suf t i r ->
    scan t (fun c => negb (p c)) i = Ok (i + length (fst (span p r))) /\
    suf t (i + length (fst (span p r))) (snd (span p r)).
  Proof.
    intros H. rewrite (span_app p r) in H. split.
    - eapply suf_scan; [exact H| |].
      + intros c Hc. rewrite (span_all p r c Hc). reflexivity.
      + pose proof (span_stop p r) as S. destruct (snd (span p r)); auto. now rewrite S.
    - now apply suf_app in H.
  Qed.
  Lemma scan_until_ext fuel s1 s2 i : (forall k c, s1 k c = s2 k c) ->
    scan_until fuel t s1 i = scan_until fuel t s2 i.
  Proof.
    intros E. revert i; induction fuel as [|f IH]; intros i; cbn [scan_until];
      destruct (i <? length t); auto; destruct (get_char t i); cbn [bind]; auto;
      rewrite E; destruct (s2 i a); cbn [bind]; auto. destruct a0; auto.
  Qed.
  Lemma ref_scan' i r p stop : suf t i r -> (forall c, stop c = negb (p c)) ->
    scan t stop i = Ok (i + length (fst (span p r))) /\
    suf t (i + length (fst (span p r))) (snd (span p r)).
  Proof.
    intros H E. rewrite <- (proj1 (ref_scan i r p H)). split; [|apply ref_scan; auto].
    apply scan_until_ext. intros _ c. now rewrite E.
  Qed.
  Lemma ref_gt i r : suf t i r ->
    exists j, scan t (fun c => (c =? cGT)%N) i = Ok j /\ att t (S j) (after_gt r) /\ i <= j.
  Proof.
    intros H. destruct (ref_scan' i r (fun c => negb (c =? cGT)%N) (fun c => (c =? cGT)%N) H) as [E S].
    { intros c. now rewrite negb_involutive. }
    exists (i + length (fst (span (fun c => negb (c =? cGT)%N) r))). split; auto. split; [|lia].
    unfold after_gt. destruct (snd (span _ r)) as [|c x].
    - right. split; auto. apply suf_nil in S. lia.
    - left. eapply suf_cons; eauto.
  Qed.
End Scan.

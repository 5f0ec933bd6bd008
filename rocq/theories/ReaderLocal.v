(** * Consequences of the reference reader: locality, equivalent spellings, provenance. *)
From Coq Require Import List NArith Arith Bool Lia.
From Verif Require Import Base TrieModel DomModel ParserModel DomSpec ApiSpec CompareSpec GrammarSpec ReaderSpec OriginSpec
  Lemmas GrammarScan GrammarText GrammarTag GrammarLoop GrammarUser ReaderScan ReaderTag ReaderText ReaderFacts ReaderGrammar
  ReaderUser ReaderOrigin.
Import ListNotations.
Local Open Scope nat_scope.

(** ** Trees read before do not influence what follows *)
Fixpoint under (ts : list tree) (st : list open_elem) : list open_elem :=
  match st with
  | [] => []
  | [(n, bs, ps, before)] => [(n, bs, ps, ts ++ before)]
  | e :: st' => e :: under ts st'
  end.
Definition put (ts cur : list tree) (st : list open_elem) : list tree :=
  match st with [] => ts ++ cur | _ => cur end.

Lemma under_len ts st : length (under ts st) = length st.
Proof. induction st as [|[[[n bs] ps] bf] [|e st] IH]; simpl in *; auto. Qed.
Lemma under_top base ts st : top_name base (under ts st) = top_name base st.
Proof. destruct st as [|[[[n bs] ps] bf] [|e st]]; reflexivity. Qed.
Lemma under_cons ts e st : st <> [] -> under ts (e :: st) = e :: under ts st.
Proof. destruct e as [[[n bs] ps] bf]. destruct st; [congruence|reflexivity]. Qed.
Lemma under_push ts n bs ps cur st :
  (n, bs, ps, put ts cur st) :: under ts st = under ts ((n, bs, ps, cur) :: st).
Proof. destruct st; reflexivity. Qed.
Lemma under_nil ts st : under ts st = [] -> st = [].
Proof. intros H. apply length_zero_iff_nil. rewrite <- (under_len ts). now rewrite H. Qed.
Lemma close_under ts : forall st cur, close_all (put ts cur st) (under ts st) = ts ++ close_all cur st.
Proof.
  induction st as [|[[[n bs] ps] bf] st IH]; intros cur; [reflexivity|].
  destruct st as [|e st]; [cbn; now rewrite app_assoc|].
  rewrite under_cons by discriminate. exact (IH (bf ++ [Elem n bs ps cur])).
Qed.
Lemma put_add ts cur st x : put ts cur st ++ [x] = put ts (cur ++ [x]) st.
Proof. destruct st; cbn; now rewrite <- ?app_assoc. Qed.

Lemma rd_before base limit ts us0 : forall n cur st us r, length r <= n ->
  rd base limit (put ts cur st) (under ts st) (us0 ++ us) r = behind ts us0 (rd base limit cur st us r).
Proof.
  induction n as [n IH] using lt_wf_ind; intros cur st us r Hn.
  rewrite (rd_eq _ _ cur), (rd_eq _ _ (put ts cur st)).
  pose proof (dropb_len r) as L. pose proof (dropb_head r) as Hh.
  destruct (dropb r) as [|c r1]; [cbn [behind]; now rewrite close_under|]. cbn [length] in L.
  assert (IH' : forall cur st us r', length r' <= length r1 ->
    rd base limit (put ts cur st) (under ts st) (us0 ++ us) r' = behind ts us0 (rd base limit cur st us r')).
  { intros cur' st' us' r' Hr'. apply (IH (length r1)); lia. }
  clear IH. rewrite under_top, under_len.
  destruct (at_comment (c :: r1)) eqn:Ec.
  { apply IH'. apply after_comment_len. }
  destruct (at_end_tag (top_name base st) (c :: r1)) eqn:Ee.
  { pose proof (at_end_tag_lt _ _ _ Ee) as ->. pose proof (after_gt_lt cLT r1 ltac:(discriminate)) as La.
    destruct st as [|[[[n' bs] ps] bef] st'].
    - apply (IH' cur []); auto.
    - rewrite <- (IH' (bef ++ [Elem n' bs ps cur]) st') by auto.
      destruct st' as [|e st']; [cbn [under put]; now rewrite app_assoc|].
      rewrite under_cons by discriminate. reflexivity. }
  destruct (at_tag c r1) eqn:Et.
  - destruct (tag_at r1) as [[[[[n' bs] ps] can] r2]|] eqn:E; [|reflexivity]. apply tag_len in E.
    destruct can.
    + destruct (limit <=? length st); [reflexivity|]. rewrite under_push, <- app_assoc.
      rewrite <- IH' by auto. reflexivity.
    + rewrite put_add, <- app_assoc. now apply IH'.
  - cbv zeta. rewrite put_add. apply IH'.
    destruct (N.eqb_spec c cLT) as [->|Hc]; [apply text_len|apply text_lt; now apply text_or].
Qed.

Lemma document_rd t : document_of t = rd [] 255 [] [] [] t.
Proof. reflexivity. Qed.
Lemma fragment_rd b t : fragment_of b t = rd b 256 [] [] [] t.
Proof. reflexivity. Qed.

Lemma rd_after base limit ts us r :
  rd base limit ts [] us r = behind ts us (rd base limit [] [] [] r).
Proof.
  pose proof (rd_before base limit ts us (length r) [] [] [] r (le_n _)) as H.
  cbn [put under] in H. now rewrite !app_nil_r in H.
Qed.

Lemma may_ends l r : ends_open l -> stops r -> may_follow l r.
Proof. intros _ H l' x ->. destruct x; cbn; auto. Qed.
Lemma may_closed l r : ~ ends_open l -> may_follow l r.
Proof.
  intros H l' x ->. destruct x; cbn; auto; exfalso; apply H; exists l'; eauto 6.
Qed.
Lemma joinable_may l r : joinable l r -> may_follow l r.
Proof.
  intros H l' x E. assert (D : ends_open l -> stops r).
  { intros X. destruct (H X) as [->|(r' & -> & Hr)]; [left; reflexivity|right].
    exists r'. split; auto. intros s ->. apply Hr. exists s. reflexivity. }
  destruct x; cbn; auto; apply D; rewrite E; exists l'; eauto 6.
Qed.

Lemma local_doc l r : well_formed Root l -> joinable l r -> depth l <= 255 ->
  document_of (source l ++ r) = behind (forest l) (opens l) (document_of r).
Proof.
  intros W J D. rewrite !document_rd.
  rewrite (reads_list [] 255 l Root [] [] [] r); auto; [|cbn; auto|now apply joinable_may].
  apply rd_after.
Qed.
Lemma local_frag b l r : well_formed Loose l -> joinable l r -> depth l <= 256 ->
  fragment_of b (source l ++ r) = behind (forest l) (opens l) (fragment_of b r).
Proof.
  intros W J D. rewrite !fragment_rd.
  rewrite (reads_list b 256 l Loose [] [] [] r); auto; [|cbn; auto|now apply joinable_may].
  apply rd_after.
Qed.

(** Inside unclosed elements. *)
Lemma opened_reads base limit : forall os cur st us r,
  (forall o, In o os -> opened_ok o) ->
  (forall os' o, os = os' ++ [o] -> may_follow (o_body o) r) -> length st + opened_depth os <= limit ->
  rd base limit cur st us (opened_src os ++ r) =
  rd base limit (fst (inner cur st os)) (snd (inner cur st os)) (us ++ opened_opens os) r.
Proof.
  induction os as [|o os IH]; intros cur st us r Ho Hr D.
  - cbn. now rewrite app_nil_r.
  - destruct (Ho o (or_introl eq_refl)) as (Hn & Hv & Ht & Hb).
    cbn [opened_depth] in D. unfold opened_src. cbn [flat_map]. rewrite <- !app_assoc.
    rewrite rd_tag by auto.
    destruct (name_head _ Hn) as (c & x & En & _ & _ & Hbang).
    assert (E : negb (starts [cBANG] (o_name o)) && negb (is_void (o_name o)) && negb false = true).
    { rewrite Hv. cbn [negb]. rewrite !andb_true_r. rewrite En. cbn [starts].
      destruct (N.eqb_spec cBANG c); [congruence|]. reflexivity. }
    rewrite E. destruct (Nat.leb_spec limit (length st)); [lia|].
    fold (opened_src os).
    rewrite (reads_list base limit (o_body o) (Inside (o_name o))); auto; [|reflexivity| |cbn [length]; lia].
    + rewrite IH; auto; [|intros o' Ho'; apply Ho; simpl; auto| |cbn [length]; lia].
      * cbn [inner app]. unfold opened_opens. cbn [flat_map]. rewrite <- !app_assoc. reflexivity.
      * intros os' o' ->. now apply (Hr (o :: os')).
    + destruct os as [|o2 os]; [now apply (Hr [])|].
      assert (Hs : stops (opened_src (o2 :: os) ++ r)).
      { unfold opened_src. cbn [flat_map]. rewrite <- !app_assoc.
        destruct (Ho o2) as (Hn2 & _ & Ht2 & _); [simpl; auto|]. apply stops_open; auto. }
      intros l' y _. destruct y; cbn [follows]; auto.
Qed.
Lemma last_items_cons l o os : last_items l (o :: os) = last_items (o_body o) os.
Proof. revert l o. induction os as [|a os IH]; intros l o; [reflexivity|]. cbn [last_items]. reflexivity. Qed.
Lemma last_items_app os : forall l o, last_items l (os ++ [o]) = o_body o.
Proof. induction os as [|a os IH]; intros l o; [reflexivity|]. apply IH. Qed.
Lemma doc_reads l os r : well_formed Root l -> (forall o, In o os -> opened_ok o) ->
  joinable (last_items l os) r -> doc_depth l os <= 255 ->
  document_of (doc_src l os ++ r) =
  rd [] 255 (fst (inner (forest l) [] os)) (snd (inner (forest l) [] os)) (doc_opens l os) r.
Proof.
  intros W Ho J D. unfold doc_depth in D. rewrite document_rd. unfold doc_src. rewrite <- app_assoc.
  rewrite (reads_list [] 255 l Root [] [] []); auto; [|cbn; auto| |cbn [length]; lia].
  - rewrite opened_reads; [reflexivity|auto| |cbn [length]; lia].
    intros os' o ->. rewrite last_items_app in J. now apply joinable_may.
  - destruct os as [|o os]; [now apply joinable_may|].
    assert (Hs : stops (opened_src (o :: os) ++ r)).
    { unfold opened_src. cbn [flat_map]. rewrite <- !app_assoc.
      destruct (Ho o) as (Hn2 & _ & Ht2 & _); [simpl; auto|]. apply stops_open; auto. }
    intros l' y _. destruct y; cbn [follows]; auto.
Qed.
Lemma inner_same : forall os os', Forall2 same_opened os os' -> forall cur st,
  inner cur st os = inner cur st os' /\ opened_opens os = opened_opens os'.
Proof.
  induction 1 as [|o o' os os' (E1 & E2 & E3 & E4 & E5) H IH]; intros cur st; [auto|].
  cbn [inner]. unfold opened_opens. cbn [flat_map]. rewrite E1, E2, E3, E4, E5.
  destruct (IH (forest (o_body o')) ((o_name o', bools_of (o_ats o'), props_of (o_ats o'), cur) :: st)) as [I1 I2].
  split; auto. unfold opened_opens in I2. now rewrite I2.
Qed.
Lemma same_prefix l os l' os' r :
  well_formed Root l -> well_formed Root l' ->
  (forall o, In o os -> opened_ok o) -> (forall o, In o os' -> opened_ok o) ->
  forest l = forest l' -> opens l = opens l' -> Forall2 same_opened os os' ->
  joinable (last_items l os) r -> joinable (last_items l' os') r ->
  doc_depth l os <= 255 -> doc_depth l' os' <= 255 ->
  document_of (doc_src l os ++ r) = document_of (doc_src l' os' ++ r).
Proof.
  intros W W' O O' F P S J J' D D'. rewrite !doc_reads by auto.
  destruct (inner_same os os' S (forest l) []) as [E1 E2]. unfold doc_opens. now rewrite <- F, E1, P, E2.
Qed.
Lemma inner_close : forall os cur st, close_all (fst (inner cur st os)) (snd (inner cur st os))
  = close_all (cur ++ opened_trees os) st.
Proof.
  induction os as [|o os IH]; intros cur st; [cbn; now rewrite app_nil_r|].
  cbn [inner]. rewrite IH. reflexivity.
Qed.
Lemma doc_reading l os : well_formed Root l -> (forall o, In o os -> opened_ok o) -> doc_depth l os <= 255 ->
  document_of (doc_src l os) = Trees (doc_trees l os) (doc_opens l os).
Proof.
  intros W O D. rewrite <- (app_nil_r (doc_src l os)), doc_reads; auto.
  - rewrite rd_eq. cbn [dropb]. now rewrite inner_close.
  - left. reflexivity.
Qed.

(** ** Equal readings, equal documents *)
Lemma same_reading t1 t2 : document_of t1 = document_of t2 ->
  (N.of_nat (length t1) <= 65533)%N -> (N.of_nat (length t2) <= 65533)%N ->
  match create_dom t1, create_dom t2 with
  | Ok (Some d1), Ok (Some d2) => exists ts us,
       shows_kids d1 1 ts /\ shows_kids d2 1 ts /\ tags_as d1 us /\ tags_as d2 us
  | Ok None, Ok None => True
  | Undef NegLen, Undef NegLen => True
  | _, _ => False
  end.
Proof.
  intros E H1 H2. pose proof (read_document_total t1 H1) as R1. pose proof (read_document_total t2 H2) as R2.
  rewrite <- E in R2. destruct (document_of t1) as [ts us| |].
  - destruct R1 as (d1 & -> & A1 & B1). destruct R2 as (d2 & -> & A2 & B2). eauto 8.
  - rewrite R1, R2. exact I.
  - rewrite R1, R2. exact I.
Qed.

Lemma created_origin t d : create_dom t = Ok (Some d) ->
  exists ts, shows_kids d 1 ts /\ Forall (tree_from t) ts /\
    sum (map volume ts) <= length t /\ sum (map entries ts) <= length t.
Proof.
  intros E. pose proof (read_document t) as H. rewrite E in H. destruct H as (ts & us & R & S & _).
  exists ts. split; auto. eapply document_origin; eauto.
Qed.
Lemma inserted_origin d bl h d1 : reachable d -> parse_extra (Some bl) h d = Ok (true, d1) ->
  exists ts, frag_shows d d1 ts /\ Forall (tree_from h) ts /\
    sum (map volume ts) <= length h /\ sum (map entries ts) <= length h.
Proof.
  intros R E. pose proof (read_fragment d R bl h) as H. rewrite E in H. destruct H as (ts & us & F & S).
  exists ts. split; auto. eapply fragment_origin; eauto.
Qed.

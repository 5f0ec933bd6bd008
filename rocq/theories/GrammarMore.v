(** * Special cases of the grammar: plain text, one element, end tags. *)
From Coq Require Import List NArith Arith Bool Lia.
From Verif Require Import Base TrieModel DomModel ParserModel EditModel DomSpec ApiSpec GrammarSpec
  Lemmas GrammarScan GrammarText GrammarUser.
Import ListNotations.
Local Open Scope nat_scope.

Lemma blanks_cons c s : is_blank c = true -> blanks s -> blanks (c :: s).
Proof. intros H1 H2 x [<-|H]; auto. Qed.

Lemma words_nil s : words s = [] -> blanks s.
Proof.
  induction s as [|c s IH]; intros H; [intros x []|]. cbn [words] in H.
  destruct (is_blank c) eqn:Eb; [apply blanks_cons; auto|].
  destruct s as [|c' s']; [discriminate|]. destruct (is_blank c'); [discriminate|].
  destruct (words (c' :: s')); discriminate.
Qed.

Lemma words_run s w ws : ~ In cLT s -> words s = w :: ws ->
  exists lead more after, s = lead ++ run_src_of w more after /\ blanks lead /\
    run_ok w more after /\ map snd more = ws.
Proof.
  revert w ws. induction s as [|c s IH]; intros w ws Hl H; [discriminate|].
  cbn [words] in H.
  assert (Hl' : ~ In cLT s) by (intros X; apply Hl; simpl; auto).
  assert (Hc : c <> cLT) by (intros X; apply Hl; simpl; auto).
  destruct (is_blank c) eqn:Eb.
  { destruct (IH w ws Hl' H) as (lead & more & after & -> & Bl & R & M).
    exists (c :: lead), more, after. split; [reflexivity|]. split; [now apply blanks_cons|auto]. }
  assert (Tc : text_char c = true).
  { unfold text_char. rewrite Eb. destruct (N.eqb_spec c cLT); [congruence|reflexivity]. }
  assert (Tw : text_word_ok [c]).
  { split; [discriminate|]. intros x [<-|[]]. exact Tc. }
  destruct s as [|c' s'].
  { injection H as <- <-. exists [], [], []. split; [reflexivity|]. split; [intros x []|].
    split; [|reflexivity]. split; auto. split; intros; simpl in *; tauto. }
  remember (words (c' :: s')) as ww eqn:Ew. symmetry in Ew.
  destruct (is_blank c') eqn:Eb'.
  - injection H as <- <-. destruct ww as [|w2 ws2].
    + exists [], [], [Ws (c' :: s')]. split.
      { unfold run_src_of. simpl. now rewrite app_nil_r. }
      split; [intros x []|]. split; [|reflexivity].
      split; auto. split; [intros ? ? []|]. intros g [<-|[]]. split; [discriminate|now apply words_nil].
    + destruct (IH w2 ws2 Hl' eq_refl) as (lead & more & after & Es & Bl & (R1 & R2 & R3) & M).
      assert (Hlead : lead <> []).
      { intros ->. simpl in Es. destruct R1 as [R1 R1']. destruct w2 as [|x w2]; [congruence|].
        simpl in Es. injection Es as -> _. specialize (R1' x (or_introl eq_refl)).
        apply text_char_spec in R1' as [R1' _]. congruence. }
      exists [], (([Ws lead], w2) :: more), after. split.
      { unfold run_src_of in *. simpl. rewrite Es. now rewrite app_nil_r, <- !app_assoc. }
      split; [intros x []|]. split; [|simpl; now rewrite M].
      split; auto. split; auto. intros gs w' [E|E]; [|now apply R2].
      injection E as <- <-. split; [discriminate|]. split; auto.
      intros g [<-|[]]. split; auto.
  - destruct ww as [|w2 ws2].
    { apply words_nil in Ew. specialize (Ew c' (or_introl eq_refl)). congruence. }
    injection H as <- <-.
    destruct (IH w2 ws2 Hl' eq_refl) as (lead & more & after & Es & Bl & (R1 & R2 & R3) & M).
    assert (lead = []).
    { destruct lead as [|x lead]; auto. simpl in Es. injection Es as <- _.
      specialize (Bl c' (or_introl eq_refl)). congruence. }
    subst lead. exists [], more, after. split; [unfold run_src_of in *; simpl in *; now rewrite Es|].
    split; [intros x []|]. split; [|auto]. split; auto. destruct R1 as [R1 R1']. split; [discriminate|].
    intros x [<-|Hx]; auto.
Qed.

(** The items of a plain text. *)
Lemma text_items pl s : ~ In cLT s ->
  exists l, source l = s /\ well_formed pl l /\ forest l = text_trees s /\ depth l = 0.
Proof.
  intros Hl. unfold text_trees. destruct (words s) as [|w ws] eqn:Ew.
  - apply words_nil in Ew. destruct s as [|c s].
    + exists []. split; auto. split; [split; [intros i []|exact I]|auto].
    + exists [Gap (Ws (c :: s))]. split; [unfold source; simpl; now rewrite app_nil_r|].
      split; [|auto]. split; [|simpl; auto]. intros i [<-|[]]. constructor. split; [discriminate|auto].
  - destruct (words_run s w ws Hl Ew) as (lead & more & after & Es & Bl & R & M).
    assert (Et : text_val w more = w ++ flat_map (fun w' => cSP :: w') ws).
    { unfold text_val. rewrite <- M. f_equal. clear.
      induction more as [|gw more IH]; simpl; [reflexivity|now rewrite IH]. }
    destruct lead as [|c lead].
    + exists [Run w more after]. split; [unfold source; simpl; now rewrite app_nil_r|].
      split; [|unfold forest; simpl; rewrite Et; auto]. split; [|simpl; auto].
      intros i [<-|[]]. now constructor.
    + exists [Gap (Ws (c :: lead)); Run w more after].
      split; [unfold source; cbn [flat_map item_src gap_src]; now rewrite app_nil_r|].
      split; [|unfold forest; simpl; rewrite Et; auto]. split; [|simpl; auto].
      intros i [<-|[<-|[]]]; constructor; auto. split; [discriminate|auto].
Qed.

Ltac flat := repeat (progress (cbn [app]; rewrite <- ?app_assoc, ?app_nil_r)).
Ltac flat_in H := repeat (progress (cbn [app] in H; rewrite <- ?app_assoc, ?app_nil_r in H)).

Lemma parses l os : well_formed Root l -> (forall o, In o os -> opened_ok o) ->
  doc_depth l os <= 255 -> parses_to (doc_src l os) (doc_trees l os).
Proof.
  intros Hw Ho Hd. pose proof (create_wf l os Hw Ho) as H. unfold parses_to.
  destruct (create_dom (doc_src l os)); simpl in *; auto. now apply H.
Qed.

Lemma plain_text s : ~ In cLT s -> parses_to s (text_trees s).
Proof.
  intros H. destruct (text_items Root s H) as (l & E & W & F & D).
  pose proof (parses l [] W ltac:(intros o [])) as P. unfold doc_src, doc_trees, doc_depth in P.
  simpl in P. rewrite !app_nil_r, E, F, D in P. apply P. simpl. lia.
Qed.

Lemma one_element n s : name_ok n -> is_void n = false -> ~ In cLT s ->
  parses_to ((cLT :: n ++ [cGT]) ++ s ++ (cLT :: cSLASH :: n ++ [cGT])) [Elem n [] [] (text_trees s)].
Proof.
  intros Hn Hv H. destruct (text_items (Inside n) s H) as (l & E & W & F & D).
  assert (P := parses [Pair n [] [] l []] []). unfold doc_src, doc_trees, doc_depth in P.
  unfold source, forest in P. cbn [flat_map item_src item_trees bools_of props_of opened_src opened_trees] in P.
  rewrite !app_nil_r in P. fold (source l) in P. fold (forest l) in P. rewrite E, F in P.
  unfold open_src, close_src in P. simpl in P. flat. flat_in P. apply P.
  - split; [|simpl; auto]. intros i [<-|[]]. constructor; auto.
    + split; [intros a []|]. split; [intros x []|discriminate].
    + apply W. + apply W.
  - intros o [].
  - cbn [depth fold_right]. cbn [item_depth]. fold (depth l). rewrite D. simpl. lia.
Qed.

Lemma prefix_dec a b : {prefix a b} + {~ prefix a b}.
Proof.
  revert b. induction a as [|c a IH]; intros b; [left; exists b; reflexivity|].
  destruct b as [|c' b]; [right; intros [s E]; discriminate|].
  destruct (N.eq_dec c c') as [<-|Hc]; [|right; intros [s E]; simpl in E; congruence].
  destruct (IH b) as [H|H]; [left|right].
  - destruct H as [s ->]. now exists s.
  - intros [s E]. simpl in E. injection E as ->. apply H. now exists s.
Qed.

Lemma one_run pl w : text_word_ok w -> item_ok pl (Run w [] []).
Proof. intros H. constructor. split; auto. split; [intros ? ? []|intros ? []]. Qed.

(** <n>a</m>z *)
Lemma end_tag_prefix n m a z : name_ok n -> is_void n = false -> text_word_ok a -> text_word_ok z ->
  ~ In cGT m -> prefix n m ->
  parses_to ((cLT :: n ++ [cGT]) ++ a ++ (cLT :: cSLASH :: m ++ [cGT]) ++ z)
            [Elem n [] [] [Txt a]; Txt z].
Proof.
  intros Hn Hv Ha Hz Hm (e & ->).
  assert (P := parses [Pair n [] [] [Run a [] []] e; Run z [] []] []).
  unfold doc_src, doc_trees, doc_depth, source, forest in P.
  cbn [flat_map item_src item_trees bools_of props_of opened_src opened_trees] in P.
  unfold run_src_of, text_val, open_src, close_src in P. simpl in P. flat. flat_in P. apply P.
  - split; [|simpl; auto]. intros i [<-|[<-|[]]]; [|now apply one_run]. constructor; auto.
    + split; [intros x []|]. split; [intros x []|discriminate].
    + intros X. apply Hm. apply in_or_app. auto.
    + intros i [<-|[]]. now apply one_run.
    + simpl. auto.
  - intros o [].
  - lia.
Qed.

Lemma end_tag_other n m a z : name_ok n -> is_void n = false -> text_word_ok a -> text_word_ok z ->
  all text_char m -> ~ In cGT n -> ~ In cGT m -> ~ prefix n m ->
  parses_to ((cLT :: n ++ [cGT]) ++ a ++ (cLT :: cSLASH :: m ++ [cGT]) ++ z)
            [Elem n [] [] [Txt a; Txt ((cSLASH :: m ++ [cGT]) ++ z)]].
Proof.
  intros Hn Hv Ha Hz Hm Hgn Hgm Hp.
  set (w := (cSLASH :: m ++ [cGT]) ++ z).
  assert (P := parses [] [mkOpen n [] [] [Run a [] []; Odd w [] []]]).
  unfold doc_src, doc_trees, doc_depth, source, forest, opened_src in P.
  cbn [flat_map item_src item_trees bools_of props_of opened_trees o_name o_ats o_ws o_body] in P.
  unfold source, forest in P. cbn [flat_map item_src item_trees] in P.
  unfold run_src_of, text_val, open_src in P. simpl in P. flat_in P.
  assert (Ew : w = cSLASH :: m ++ cGT :: z) by (unfold w; flat; reflexivity).
  rewrite Ew. flat.
  apply P; clear P.
  - split; [intros i []|exact I].
  - intros o [<-|[]]. split; auto. split; auto.
    split; [split; [intros x []|]; split; [intros x []|discriminate]|].
    split; [|simpl; auto]. intros i [<-|[<-|[]]]; [now apply one_run|].
    assert (Hw : text_word_ok w).
    { split; [discriminate|]. intros x Hx. unfold w in Hx. apply in_app_or in Hx as [[<-|Hx]|Hx].
      - reflexivity.
      - apply in_app_or in Hx as [Hx|[<-|[]]]; [now apply Hm|reflexivity].
      - now apply Hz. }
    constructor.
    + split; auto. split; [intros ? ? []|intros ? []].
    + exists cSLASH, ((m ++ [cGT]) ++ z). split; [reflexivity|]. split; [reflexivity|].
      split; [discriminate|]. intros _. exists n. split; auto. split.
      * intros [s E]. unfold w in E. simpl in E. injection E as E. apply Hp. clear - E Hgn.
        revert m E. induction n as [|c n IH]; intros m E; [exists m; reflexivity|].
        destruct m as [|c' m]; simpl in E.
        -- exfalso. injection E as <- _. apply Hgn. simpl; auto.
        -- injection E as <- E. destruct (IH ltac:(intros X; apply Hgn; simpl; auto) m E) as [s' ->].
           now exists s'.
      * intros [s E]. unfold w in E. simpl in E. injection E as E. apply Hgn. rewrite E.
        rewrite <- !app_assoc. apply in_or_app. right. simpl; auto.
  - simpl. lia.
Qed.

(** Stray end tags at the top. *)
Lemma stray_ignored j l1 l2 os : ~ In cGT j -> well_formed Root (l1 ++ l2) ->
  (forall o, In o os -> opened_ok o) -> doc_depth (l1 ++ l2) os <= 255 ->
  parses_to (source l1 ++ (cLT :: cSLASH :: j ++ [cGT]) ++ source l2 ++ opened_src os)
            (doc_trees (l1 ++ l2) os) /\
  parses_to (source l1 ++ source l2 ++ opened_src os) (doc_trees (l1 ++ l2) os).
Proof.
  intros Hj [W1 W2] Ho Hd.
  assert (Dep : depth (l1 ++ Stray j :: l2) = depth (l1 ++ l2)).
  { clear. induction l1 as [|x l1 IH]; [reflexivity|]. unfold depth in *. simpl. now rewrite IH. }
  assert (For : forest (l1 ++ Stray j :: l2) = forest (l1 ++ l2)).
  { unfold forest. rewrite !flat_map_app. reflexivity. }
  assert (RM : runs_maximal (l1 ++ Stray j :: l2)).
  { clear - W2. induction l1 as [|x l1 IH]; simpl in *; [tauto|].
    destruct W2 as [A Bm]. split; [|auto]. destruct l1 as [|y l1]; simpl in *; [destruct x; auto|auto]. }
  split.
  - assert (P := parses (l1 ++ Stray j :: l2) os). unfold doc_src, doc_trees, doc_depth in *.
    rewrite Dep, For in P. unfold source in P |- *. rewrite flat_map_app in P.
    cbn [flat_map item_src] in P. unfold close_src in P. flat_in P. flat. apply P; auto.
    split; auto. intros i Hi. apply in_app_or in Hi as [Hi|[<-|Hi]].
    + apply W1, in_or_app. auto.
    + now constructor.
    + apply W1, in_or_app. auto.
  - assert (P := parses (l1 ++ l2) os). unfold doc_src, doc_trees, doc_depth in *.
    unfold source in P |- *. rewrite flat_map_app, <- app_assoc in P. apply P; auto. split; auto.
Qed.

(** n nested elements. *)
Lemma nested_opened tag n : nested tag n = opened_src (repeat (mkOpen tag [] [] []) n) /\
  opened_depth (repeat (mkOpen tag [] [] []) n) = n.
Proof.
  induction n as [|n [I1 I2]]; [split; reflexivity|]. split.
  - cbn [nested repeat]. unfold opened_src in *. cbn [flat_map]. rewrite I1. f_equal.
    unfold open_src, source. simpl. rewrite ?app_nil_r. reflexivity.
  - simpl. now rewrite I2.
Qed.
Lemma nested_limit tag n : name_ok tag -> is_void tag = false ->
  ends_in (create_dom (nested tag n)) (fun r => (n <= 255 -> exists d, r = Some d) /\ (255 < n -> r = None)).
Proof.
  intros Hn Hv. destruct (nested_opened tag n) as [E D]. rewrite E.
  assert (P := create_wf [] (repeat (mkOpen tag [] [] []) n)). unfold doc_src, doc_depth in P.
  rewrite D in P. simpl in P. fold (opened_src (repeat (mkOpen tag [] [] []) n)) in P.
  match type of P with ?A -> ?B -> _ => assert (H1 : A) by (split; [intros i []|exact I]); assert (H2 : B) end.
  { intros o Ho. apply repeat_spec in Ho. subst o. split; auto. split; auto.
    split; [split; [intros x []|]; split; [intros x []|discriminate]|]. split; [intros i []|exact I]. }
  specialize (P H1 H2). destruct (create_dom _); simpl in *; auto.
  destruct P as [P1 P2]. split; auto. intros Hd. destruct (P1 Hd) as (d & -> & _). eauto.
Qed.

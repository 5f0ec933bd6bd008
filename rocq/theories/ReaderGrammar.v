(** * Well-formed markup inside arbitrary input. *)
From Coq Require Import List NArith Arith Bool Lia.
From Verif Require Import Base TrieModel DomModel ParserModel DomSpec ApiSpec CompareSpec GrammarSpec ReaderSpec
  Lemmas GrammarScan GrammarText GrammarTag GrammarLoop ReaderScan ReaderTag ReaderText ReaderFacts.
Import ListNotations.
Local Open Scope nat_scope.

Definition may_follow (l : list item) (r : bytes) : Prop :=
  forall l' x, l = l' ++ [x] -> follows x r.
Lemma follows_in pl x l r : well_formed pl (x :: l) -> may_follow (x :: l) r -> follows x (source l ++ r).
Proof.
  intros W H. destruct l as [|y l].
  - cbn [source flat_map app]. now apply (H []).
  - destruct W as [Wi Wm].
    assert (Hy : item_ok pl y) by (apply Wi; simpl; auto).
    assert (G : match y with Gap _ | Run _ _ _ => False | _ => True end -> stops (source (y :: l) ++ r)).
    { intros Hl. unfold source. cbn [flat_map]. rewrite <- app_assoc.
      destruct y; try contradiction; cbn [item_src].
      - inversion Hy as [|pl' n' a' w' s' Hn Hr'| | | |]; subst. apply stops_open; auto.
        destruct Hn as [Hn|[Hn _]]; auto.
      - inversion Hy; subst. rewrite <- app_assoc. apply stops_open; auto.
      - inversion Hy; subst. unfold run_src_of. simpl. rewrite <- !app_assoc. eapply stops_odd; eauto.
      - apply stops_close. }
    destruct x; simpl; auto; simpl in Wm; destruct Wm as [Wm _]; apply G; destruct y; auto.
Qed.
Lemma may_follow_tl x l r : may_follow (x :: l) r -> may_follow l r.
Proof. intros H l' y ->. now apply (H (x :: l')). Qed.

Section Context_.
  Context (base : bytes) (limit : nat).
  Local Notation rd := (rd base limit).
  Definition place_is (pl : place) (st : list open_elem) : Prop :=
    match pl with
    | Root => base = [] /\ st = []
    | Loose => True
    | Inside n => top_name base st = n
    end.

  Lemma end_no n c r : c <> cSLASH -> at_end_tag n (cLT :: c :: r) = false.
  Proof.
    intros H. unfold at_end_tag. cbn [starts]. destruct (N.eqb_spec cSLASH c); [congruence|].
    now rewrite andb_false_r.
  Qed.
  Lemma end_yes n e r : at_end_tag n (close_src n e ++ r) = true.
  Proof.
    unfold at_end_tag. rewrite close_src_eq. apply andb_true_iff. split.
    - apply starts_iff. exists (e ++ cGT :: r). reflexivity.
    - cbn [length]. rewrite !app_length. simpl. apply Nat.ltb_lt. lia.
  Qed.
  Lemma end_yes_root j r : at_end_tag [] (close_src j [] ++ r) = true.
  Proof.
    unfold at_end_tag. rewrite close_src_eq. apply andb_true_iff. split; [reflexivity|].
    cbn [length]. rewrite !app_length. simpl. apply Nat.ltb_lt. lia.
  Qed.
  Lemma after_close n e r : ~ In cGT (n ++ e) -> after_gt (close_src n e ++ r) = r.
  Proof.
    intros H. rewrite close_src_eq. unfold after_gt.
    change (cLT :: cSLASH :: n ++ e ++ cGT :: r) with ([cLT; cSLASH] ++ n ++ e ++ cGT :: r).
    rewrite (app_assoc n), (app_assoc _ (n ++ e)). rewrite span_word; [reflexivity| |reflexivity].
    intros c Hc. apply in_app_or in Hc as [[<-|[<-|[]]]|Hc]; auto.
    destruct (N.eqb_spec c cGT) as [->|]; [contradiction|auto].
  Qed.

  Lemma rd_tag n ats ws sl r cur st us : decl_ok n \/ name_ok n -> tag_rest_ok ats ws sl ->
    rd cur st us (open_src n ats ws sl ++ r) =
    if negb (starts [cBANG] n) && negb (is_void n) && negb sl then
      if limit <=? length st then TooDeep
      else rd [] ((n, bools_of ats, props_of ats, cur) :: st) (us ++ [(n, true)]) r
    else rd (cur ++ [Elem n (bools_of ats) (props_of ats) []]) st (us ++ [(n, false)]) r.
  Proof.
    intros Hn Hr. rewrite open_src_eq, rd_eq. cbn [dropb]. change (is_blank cLT) with false. cbn iota.
    rewrite not_com by (intros s; now apply open_no_comment).
    assert (Hh : all name_char n /\ exists c x, n = c :: x /\ c <> cSLASH /\ is_alpha c || (c =? cBANG)%N = true).
    { destruct Hn as [(A & (x & E) & _)|H].
      - split; auto. exists cBANG, x. split; auto. split; [discriminate|reflexivity].
      - destruct (name_head n H) as (c & x & E & Ha & Hs & _). split; [apply H|]. exists c, x. split; auto.
        split; auto. now rewrite Ha. }
    destruct Hh as (Ha & c & x & E & Hs & Hc).
    assert (Ht : at_tag cLT (n ++ attrs_src ats ++ tag_tail ws sl r) = true).
    { unfold at_tag. rewrite N.eqb_refl, E. cbn [app andb]. exact Hc. }
    rewrite Ht. rewrite tag_src_at by (auto; rewrite E; discriminate).
    assert (He : at_end_tag (top_name base st) (cLT :: n ++ attrs_src ats ++ tag_tail ws sl r) = false)
      by (rewrite E; cbn [app]; now apply end_no).
    rewrite He. reflexivity.
  Qed.
  Lemma rd_text w more after r cur st us c x : run_ok w more after -> stops r -> w = c :: x -> c <> cLT ->
    rd cur st us (run_src_of w more after ++ r) = rd (cur ++ [Txt (text_val w more)]) st us r.
  Proof.
    intros Hr Hs E Hc. rewrite rd_eq. pose proof (text_run w more after r Hr Hs) as T.
    assert (Ey : exists y, run_src_of w more after ++ r = c :: y) by (unfold run_src_of; rewrite E; cbn; eauto).
    destruct Ey as [y Ey]. rewrite Ey in *.
    assert (Tc : text_char c = true) by (destruct Hr as [[_ Hr] _]; apply Hr; rewrite E; simpl; auto).
    destruct (text_char_spec c Tc) as [Hb _]. cbn [dropb]. rewrite Hb.
    destruct (at_comment (c :: y)) eqn:Ec; [apply at_comment_lt in Ec; congruence|].
    destruct (at_end_tag (top_name base st) (c :: y)) eqn:Ee; [apply at_end_tag_lt in Ee; congruence|].
    unfold at_tag. destruct (N.eqb_spec c cLT); [congruence|]. cbn [andb]. rewrite T. reflexivity.
  Qed.
  Lemma rd_odd pl w more after r cur st us : run_ok w more after -> stops r -> odd_ok pl w -> place_is pl st ->
    rd cur st us (cLT :: run_src_of w more after ++ r) = rd (cur ++ [Txt (text_val w more)]) st us r.
  Proof.
    intros Hr Hs (c & x & E & Ha & Hb & Ho) Hp. rewrite rd_eq. pose proof (text_run w more after r Hr Hs) as T.
    assert (Ey : exists y, run_src_of w more after ++ r = w ++ y) by (unfold run_src_of; rewrite <- app_assoc; eauto).
    destruct Ey as [y Ey]. rewrite Ey in *.
    cbn [dropb]. change (is_blank cLT) with false. cbn iota.
    rewrite not_com by (rewrite E; cbn [app]; intros s X; congruence).
    assert (Ee : at_end_tag (top_name base st) (cLT :: w ++ y) = false).
    { destruct (N.eq_dec c cSLASH) as [->|Hc]; [|rewrite E; now apply end_no].
      destruct (Ho eq_refl) as (n & -> & H1 & H2). cbn [place_is] in Hp. rewrite Hp.
      unfold at_end_tag. destruct (starts (cLT :: cSLASH :: n) (cLT :: w ++ y)) eqn:Es; auto. exfalso.
      apply starts_iff in Es as [s Es]. cbn [app] in Es. injection Es as Es.
      assert (D : prefix w (cSLASH :: n) \/ prefix (cSLASH :: n) w).
      { clear - Es. change (cSLASH :: n ++ s) with ((cSLASH :: n) ++ s) in Es. remember (cSLASH :: n) as m. clear Heqm n.
        revert m Es. induction w as [|a w IH]; intros m Es; [left; now exists m|].
        destruct m as [|b m]; [right; now exists (a :: w)|]. cbn [app] in Es. injection Es as -> Es.
        destruct (IH m Es) as [[z ->]|[z ->]]; [left|right]; now exists z. }
      tauto. }
    rewrite Ee.
    assert (Et : at_tag cLT (w ++ y) = false).
    { unfold at_tag. rewrite N.eqb_refl, E. cbn [app andb]. rewrite Ha. destruct (N.eqb_spec c cBANG); [congruence|auto]. }
    rewrite Et, N.eqb_refl, T. reflexivity.
  Qed.

  Definition item_reads (x : item) : Prop := forall pl st cur us r,
    item_ok pl x -> place_is pl st -> follows x r -> length st + item_depth x <= limit ->
    rd cur st us (item_src x ++ r) = rd (cur ++ item_trees x) st (us ++ item_opens x) r.

  Lemma list_reads l : Forall item_reads l -> forall pl st cur us r,
    well_formed pl l -> place_is pl st -> may_follow l r -> length st + depth l <= limit ->
    rd cur st us (source l ++ r) = rd (cur ++ forest l) st (us ++ opens l) r.
  Proof.
    induction 1 as [|x l Hx Hl IH]; intros pl st cur us r W P F D.
    - cbn. now rewrite !app_nil_r.
    - pose proof (follows_in _ _ _ _ W F) as Fx. unfold source, forest, opens in *. cbn [flat_map].
      cbn [depth fold_right] in D. fold (depth l) in D. rewrite <- app_assoc.
      rewrite (Hx pl); auto; [| |lia].
      2:{ apply W. simpl; auto. }
      rewrite (IH pl); auto; [now rewrite <- !app_assoc| | |lia].
      + destruct W as [Wi Wm]. split; [intros i Hi; apply Wi; simpl; auto|].
        cbn [runs_maximal] in Wm. apply Wm.
      + eapply may_follow_tl; eauto.
  Qed.

  Lemma reads : forall x, item_reads x.
  Proof.
    induction x as [g|n ats ws sl|n ats ws body e IH|w more after|w more after|j] using item_induct;
      intros pl st cur us r Ho P F D; inversion Ho; subst; cbn [item_src item_trees item_opens] in *;
      rewrite ?app_nil_r.
    - destruct g as [ws|b]; cbn [gap_src gap_ok] in *.
      + now apply rd_blanks.
      + assert (Hg : com_ok b) by assumption. destruct (com_at b r Hg) as [A B]. rewrite rd_eq.
        destruct (com_src b) as [|c x] eqn:E; [discriminate|]. cbn [app] in *.
        injection E as <- E. cbn [dropb]. change (is_blank cLT) with false. cbn iota. now rewrite A, B.
    - rewrite rd_tag; auto; [|tauto].
      assert (E : negb (starts [cBANG] n) && negb (is_void n) && negb sl = false).
      { assert (Hn : decl_ok n \/ name_ok n /\ (is_void n = true \/ sl = true)) by assumption.
        destruct Hn as [(_ & (x & ->) & _)|(_ & [->| ->])]; [reflexivity| |]; cbn [negb];
          rewrite ?andb_false_r; reflexivity. }
      now rewrite E.
    - rewrite <- !app_assoc. rewrite rd_tag; auto.
      assert (Hn : name_ok n) by assumption. assert (Hv : is_void n = false) by assumption.
      destruct (name_head n Hn) as (c & x & En & _ & _ & Hbang).
      assert (E : negb (starts [cBANG] n) && negb (is_void n) && negb false = true).
      { rewrite Hv. cbn [negb]. rewrite !andb_true_r. rewrite En. cbn [starts].
        destruct (N.eqb_spec cBANG c); [congruence|]. reflexivity. }
      rewrite E. cbn [item_depth] in D. fold (depth body) in D.
      destruct (Nat.leb_spec limit (length st)); [lia|].
      fold (source body).
      rewrite (list_reads body IH (Inside n)); auto.
      2:{ split; auto. }
      2:{ reflexivity. }
      2:{ intros l' y El. assert (Hy : item_ok (Inside n) y) by (match goal with H : forall i, In i body -> _ |- _ => apply H end; rewrite El; apply in_or_app; simpl; auto).
          inversion Hy; subst; cbn [follows]; auto; apply stops_close. }
      2:{ cbn [length]. lia. }
      cbn [app]. rewrite rd_eq.
      pose proof (end_yes n e r) as Ey. pose proof (after_close n e r) as Ea.
      destruct (close_src n e ++ r) as [|z y] eqn:Ec; [discriminate|].
      assert (z = cLT) as -> by (unfold close_src in Ec; cbn [app] in Ec; congruence).
      cbn [dropb]. change (is_blank cLT) with false. cbn iota.
      rewrite not_com.
      2:{ intros s Es. subst y. unfold close_src in Ec. cbn [app] in Ec. discriminate. }
      cbn [top_name]. rewrite Ey, Ea.
      2:{ intros X. apply in_app_or in X as [X|X]; [|contradiction]. destruct Hn as [Hn _]. apply Hn in X. discriminate. }
      unfold forest, opens. now rewrite <- app_assoc.
    - assert (Hr : run_ok w more after) by assumption.
      destruct Hr as [[Hne Hw] Hr]. destruct w as [|c x]; [congruence|].
      rewrite (rd_text (c :: x) more after r cur st us c x); auto.
      destruct (text_char_spec c) as [_ Hc]; [apply Hw; simpl; auto|]. exact Hc.
    - cbn [app]. now rewrite (rd_odd pl).
    - destruct P as [Pb ->]. rewrite rd_eq.
      pose proof (end_yes_root j r) as Ey. pose proof (after_close j [] r) as Ea. rewrite app_nil_r in Ea.
      destruct (close_src j [] ++ r) as [|z y] eqn:Ec; [discriminate|].
      assert (z = cLT) as -> by (unfold close_src in Ec; cbn [app] in Ec; congruence).
      cbn [dropb]. change (is_blank cLT) with false. cbn iota.
      rewrite not_com.
      2:{ intros s Es. subst y. unfold close_src in Ec. cbn [app] in Ec. discriminate. }
      cbn [top_name]. rewrite Pb, Ey, Ea by auto. reflexivity.
  Qed.
  Lemma reads_list l pl st cur us r :
    well_formed pl l -> place_is pl st -> may_follow l r -> length st + depth l <= limit ->
    rd cur st us (source l ++ r) = rd (cur ++ forest l) st (us ++ opens l) r.
  Proof. apply list_reads. apply Forall_forall. intros x _. apply reads. Qed.
End Context_.

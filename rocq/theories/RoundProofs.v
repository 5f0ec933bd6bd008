(** * Printing and parsing back. *)
From Coq Require Import String List NArith Arith Bool Lia.
From Verif Require Import Base TrieModel DomModel ParserModel EditModel CompareModel DomSpec ApiSpec CompareSpec LogModel
  PrintModel PrintSpec GrammarSpec RoundSpec Lemmas TrieProofs Tables Inv RegProofs ParseTree ApiProofs EditUser ReadUser
  CompareProofs PrintProofs GrammarScan GrammarText GrammarTag GrammarLoop GrammarUser GrammarMore.
Import ListNotations.
Local Open Scope nat_scope.

(** ** The printed form as a syntax tree *)
Definition print_attrs (bs : list bytes) (ps : list (bytes * bytes)) : list attr :=
  map (fun b => mkAttr [cSP] (Bare b) None) bs ++
  map (fun kv => mkAttr [cSP] (Bare (fst kv)) (Some (Quoted cDQ (snd kv)))) ps.
Definition text_item (s : bytes) : item :=
  match words s with
  | w :: ws => Run w (map (fun w' => ([Ws [cSP]], w')) ws) []
  | [] => Run [] [] []
  end.
Fixpoint tree_item (pr : bytes -> bool) (t : tree) : item :=
  match t with
  | Txt s => text_item s
  | Elem n bs ps ts =>
      if pr n then Pair n (print_attrs bs ps) [] (map (tree_item pr) ts) []
      else Leaf n (print_attrs bs ps) [] (negb (beq n (lit "!DOCTYPE")))
  end.
(** The bytes. *)
Definition tag_text (n : bytes) (bs : list bytes) (ps : list (bytes * bytes)) : bytes :=
  lit "<" ++ n ++ flat_map (fun b => lit " " ++ b) bs ++ flat_map attr_text ps.
Fixpoint tree_text (pr : bytes -> bool) (t : tree) : bytes :=
  match t with
  | Txt s => s
  | Elem n bs ps ts =>
      if pr n then tag_text n bs ps ++ lit ">" ++ flat_map (tree_text pr) ts ++ lit "</" ++ n ++ lit ">"
      else tag_text n bs ps ++ if beq n (lit "!DOCTYPE") then lit ">" else lit "/>"
  end.

Lemma attrs_src_print bs ps : attrs_src (print_attrs bs ps) =
  flat_map (fun b => lit " " ++ b) bs ++ flat_map attr_text ps.
Proof.
  unfold attrs_src, print_attrs. rewrite flat_map_app. f_equal.
  - induction bs as [|b bs IH]; auto. cbn [map flat_map]. rewrite IH. unfold attr_src. cbn [a_ws a_key a_val word_src].
    now rewrite app_nil_r.
  - induction ps as [|[k v] ps IH]; auto. cbn [map flat_map]. rewrite IH. unfold attr_src, attr_text.
    cbn [a_ws a_key a_val word_src fst snd]. rewrite <- !app_assoc. cbn [app]. rewrite <- !app_assoc. reflexivity.
Qed.
Lemma bools_print bs ps : bools_of (print_attrs bs ps) = bs.
Proof.
  unfold bools_of, print_attrs. rewrite flat_map_app.
  assert (E1 : flat_map (fun a => match a_val a with None => [word_val (a_key a)] | Some _ => [] end)
     (map (fun b => mkAttr [cSP] (Bare b) None) bs) = bs).
  { induction bs as [|b bs IH]; auto. cbn [map flat_map a_val a_key word_val app]. now rewrite IH. }
  rewrite E1. rewrite <- (app_nil_r bs) at 2. f_equal. induction ps as [|kv ps IH]; auto.
Qed.
Lemma props_print bs ps : props_of (print_attrs bs ps) = ps.
Proof.
  unfold props_of, print_attrs. rewrite flat_map_app.
  assert (E1 : flat_map (fun a => match a_val a with
                     | Some v => [(word_val (a_key a), word_val v)] | None => [] end)
     (map (fun b => mkAttr [cSP] (Bare b) None) bs) = []).
  { induction bs as [|b bs IH]; auto. }
  rewrite E1. cbn [app]. induction ps as [|[k v] ps IH]; auto.
  cbn [map flat_map a_val a_key word_val app fst snd]. now rewrite IH.
Qed.

Lemma text_item_src s : text_printable s -> exists w more, text_item s = Run w more [] /\
  run_ok w more [] /\ run_src_of w more [] = s /\ text_val w more = s.
Proof.
  intros [E Hl]. unfold text_item, text_trees in *. destruct (words s) as [|w ws] eqn:W; [discriminate|].
  destruct (words_run s w ws Hl W) as (lead & more & after & _ & _ & (R1 & R2 & _) & Em).
  exists w, (map (fun w' => ([Ws [cSP]], w')) ws). split; auto. injection E as E.
  assert (F : flat_map (fun gw : list gap * bytes => gaps_src (fst gw) ++ snd gw)
                (map (fun w' => ([Ws [cSP]], w')) ws) = flat_map (fun w' => cSP :: w') ws).
  { clear. induction ws as [|w ws IH]; auto. cbn [map flat_map]. rewrite IH. reflexivity. }
  assert (G : flat_map (fun gw : list gap * bytes => cSP :: snd gw)
                (map (fun w' => ([Ws [cSP]], w')) ws) = flat_map (fun w' => cSP :: w') ws).
  { clear. induction ws as [|w ws IH]; auto. cbn [map flat_map]. rewrite IH. reflexivity. }
  split; [|split].
  - split; auto. split; [|intros g []]. intros gs w' H. apply in_map_iff in H as (w2 & Ew & Hw).
    injection Ew as <- <-. split; [discriminate|]. split.
    + intros g [<-|[]]. split; [discriminate|]. intros c [<-|[]]. reflexivity.
    + rewrite <- Em in Hw. apply in_map_iff in Hw as ([gs2 w3] & Ew & Hw). cbn [snd] in Ew. subst w3.
      apply (R2 _ _ Hw).
  - unfold run_src_of. etransitivity; [|exact E]. f_equal. change (gaps_src []) with (@nil N). rewrite app_nil_r. exact F.
  - unfold text_val. etransitivity; [|exact E]. f_equal. exact G.
Qed.

Lemma print_attrs_ok bs ps : attrs_printable bs ps ->
  forall a, In a (print_attrs bs ps) -> attr_ok a.
Proof.
  intros [H1 H2] a Ha. unfold print_attrs in Ha. apply in_app_or in Ha as [Ha|Ha].
  - apply in_map_iff in Ha as (b & <- & Hb). split; [discriminate|]. split.
    + intros c [<-|[]]. reflexivity.
    + split; [|exact I]. apply (H1 b Hb).
  - apply in_map_iff in Ha as ([k v] & <- & Hk). destruct (H2 k v Hk) as [K V]. split; [discriminate|]. split.
    + intros c [<-|[]]. reflexivity.
    + split; [exact K|]. split; [reflexivity|exact V].
Qed.
Lemma ends_bare_print bs ps : ends_bare (print_attrs bs ps) -> bs <> [] /\ ps = [].
Proof.
  intros (l' & a & E & s & Hs). unfold print_attrs in E.
  assert (Hd : ps = [] \/ ps <> []) by (destruct ps; [now left|right; discriminate]).
  destruct Hd as [->|Hp].
  - split; auto. intros ->. destruct l'; discriminate.
  - exfalso. destruct (@exists_last _ ps Hp) as (ps' & kv & ->). rewrite map_app, app_assoc in E.
    apply app_inj_tail in E as [_ <-]. discriminate.
Qed.
Lemma print_rest_ok bs ps sl : attrs_printable bs ps ->
  (sl = true -> bs = [] \/ ps <> []) -> tag_rest_ok (print_attrs bs ps) [] sl.
Proof.
  intros H Hs. split; [now apply print_attrs_ok|]. split; [intros c []|].
  intros E B. apply ends_bare_print in B as [B1 B2]. destruct (Hs E); contradiction.
Qed.

Lemma runs_apart pr ts : texts_apart ts -> (forall t, In t ts -> printable pr t) ->
  runs_maximal (map (tree_item pr) ts).
Proof.
  induction ts as [|a ts IH]; intros Ha Hp; [exact I|]. cbn [map runs_maximal]. split.
  - destruct ts as [|b ts]; cbn [map].
    + now destruct (tree_item pr a).
    + specialize (Ha [] a b ts eq_refl).
      pose proof (Hp a (or_introl eq_refl)) as Pa. pose proof (Hp b (or_intror (or_introl eq_refl))) as Pb.
      destruct a as [n bs ps us|s]; cbn [tree_item]; [now destruct (pr n)|].
      inversion Pa as [? Ts| |]; subst. destruct (text_item_src s Ts) as (w & more & -> & _).
      destruct b as [n bs ps us|s']; [|exfalso; apply Ha; simpl; auto]. cbn [tree_item].
      now destruct (pr n).
  - apply IH; [|intros t Ht; apply Hp; simpl; auto]. intros l1 x y l2 E. apply (Ha (a :: l1) x y l2). now rewrite E.
Qed.

Section Trees.
  Context (pr : bytes -> bool).

  Record tree_good (t : tree) : Prop := {
    tg_ok : forall pl, item_ok pl (tree_item pr t);
    tg_src : item_src (tree_item pr t) = tree_text pr t;
    tg_trees : item_trees (tree_item pr t) = [t];
    tg_depth : item_depth (tree_item pr t) = tree_depth pr t;
    tg_opens : forall n b, In (n, b) (item_opens (tree_item pr t)) -> b = pr n }.

  Lemma list_good ts : Forall tree_good ts ->
    (forall pl i, In i (map (tree_item pr) ts) -> item_ok pl i) /\
    flat_map item_src (map (tree_item pr) ts) = flat_map (tree_text pr) ts /\
    flat_map item_trees (map (tree_item pr) ts) = ts /\
    fold_right (fun i m => Nat.max (item_depth i) m) 0 (map (tree_item pr) ts) =
      fold_right (fun t m => Nat.max (tree_depth pr t) m) 0 ts /\
    (forall n b, In (n, b) (flat_map item_opens (map (tree_item pr) ts)) -> b = pr n).
  Proof.
    induction 1 as [|t ts [G1 G2 G3 G4 G5] _ (I1 & I2 & I3 & I4 & I5)].
    - repeat split; auto. intros pl i []. intros n b [].
    - cbn [map flat_map fold_right]. split; [intros pl i [<-|Hi]; auto|].
      rewrite G2, G3, G4, I2, I3, I4. repeat split; auto.
      intros n b H. apply in_app_or in H as [H|H]; auto.
  Qed.

  Lemma printable_good t : printable pr t -> tree_good t.
  Proof.
    induction t as [s|n bs ps ts IH] using tree_induct; intros P.
    - inversion P as [? Ts| |]; subst. destruct (text_item_src s Ts) as (w & more & E & R & Es & Ev).
      constructor; cbn [tree_item tree_text tree_depth]; rewrite E; cbn [item_src item_trees item_depth item_opens]; auto.
      + intros pl. now apply ok_run.
      + now rewrite Ev.
      + intros n b [].
    - inversion P as [|? ? ? ? Hp Hn Hv Ha Ht Hs|? ? ? Hp Hn Ha Hd]; subst.
      + assert (F : Forall tree_good ts).
        { apply Forall_forall. intros t Hi. rewrite Forall_forall in IH. auto. }
        destruct (list_good ts F) as (I1 & I2 & I3 & I4 & I5).
        pose proof (print_rest_ok bs ps false Ha ltac:(discriminate)) as Hr.
        constructor; cbn [tree_item tree_text tree_depth]; rewrite Hp;
          cbn [item_src item_trees item_depth item_opens].
        * intros pl. apply ok_pair; auto. now apply runs_apart.
        * rewrite I2. unfold open_src, close_src, tag_text. rewrite attrs_src_print. cbn [app].
          rewrite <- !app_assoc. reflexivity.
        * rewrite bools_print, props_print. now rewrite I3.
        * now rewrite I4.
        * intros m b [E|H]; [injection E as <- <-; auto|auto].
      + assert (Hr : tag_rest_ok (print_attrs bs ps) [] (negb (beq n (lit "!DOCTYPE")))).
        { apply print_rest_ok; auto. intros E. apply Hd. intros X. rewrite X in E. discriminate. }
        constructor; cbn [tree_item tree_text tree_depth]; rewrite Hp;
          cbn [item_src item_trees item_depth item_opens].
        * intros pl. apply ok_leaf; auto. destruct Hn as [Hn|Hn]; auto. right. split; auto. right.
          destruct (beq n (lit "!DOCTYPE")) eqn:B; auto. apply beq_eq in B. subst n.
          destruct Hn as [_ (c & r & E & A)]. injection E as <- <-. discriminate.
        * unfold open_src, tag_text. rewrite attrs_src_print.
          destruct (beq n (lit "!DOCTYPE")); cbn [negb app]; rewrite <- !app_assoc; reflexivity.
        * now rewrite bools_print, props_print.
        * reflexivity.
        * intros m b [E|[]]. injection E as <- <-. auto.
  Qed.

  (** ** What a DOM prints *)
  Context (d : dom) (R : reachable d) (A : agrees d pr).

  Lemma paired_some x n : tag_name d x = Some n -> exists b, paired d x = Some b.
  Proof.
    unfold tag_name, paired. destruct (nth_error (nodes d) x) as [[i [] [t| |]]|]; try discriminate.
    destruct (nth_error (tag_reg d) t); [eauto|discriminate].
  Qed.
  Lemma shows_prints t : forall x, shows d x t ->
    prints d x (tree_text pr t).
  Proof.
    induction t as [s|n bs ps ts IH] using tree_induct; intros x H.
    - inversion H as [? ? Hc Hk|]; subst. apply prints_text. unfold text_content, content in Hc. injection Hc as _ _ Ht _ _. exact Ht.
    - inversion H as [|? ? ? ? l ? Hc Hk Hf]; subst. unfold content in Hc. injection Hc as Ek Et Ex Eb Ep.
      destruct (paired_some x n Et) as (b & Hb). pose proof (A x n b Et Hb) as Eb'. subst b.
      assert (O : open_text d x n = tag_text n bs ps).
      { unfold open_text, tag_text. now rewrite Eb, Ep. }
      cbn [tree_text]. rewrite <- O. destruct (pr n) eqn:Pn.
      + apply (prints_paired d x n l); auto. clear - IH Hf.
        induction Hf as [|c t cs us Hc Hf IHf]; [constructor|]. inversion IH; subst.
        cbn [flat_map]. constructor; auto.
      + destruct (beq n (lit "!DOCTYPE")) eqn:B.
        * apply beq_eq in B. subst n. apply prints_doctype; auto.
        * apply prints_single; auto. intros X. rewrite X in B. discriminate.
  Qed.
  Lemma doc_prints ts s : shows_kids d 1 ts -> prints d 1 s -> s = flat_map (tree_text pr) ts.
  Proof.
    intros (l & Hl & Hf) Hs. apply (prints_unique d R 1 s Hs).
    apply (prints_root d 1 l); auto.
    - destruct (reachable_good d R) as (k & G). apply (ty_one _ _ (g_ty _ _ G)).
    - clear - Hf A. induction Hf as [|c t cs us Hc Hf IHf]; [constructor|]. cbn [flat_map].
      constructor; auto. now apply shows_prints.
  Qed.
End Trees.

(** ** Parsing the printed form *)
Lemma doc_items pr ts : printable_doc pr ts ->
  let l := map (tree_item pr) ts in
  well_formed Root l /\ source l = flat_map (tree_text pr) ts /\ forest l = ts /\ depth l <= 255 /\
  (forall n b, In (n, b) (opens l) -> b = pr n).
Proof.
  intros [H Ha] l. assert (F : Forall (tree_good pr) ts).
  { apply Forall_forall. intros t Ht. apply printable_good, H, Ht. }
  destruct (list_good pr ts F) as (I1 & I2 & I3 & I4 & I5).
  split; [split; [intros i Hi; now apply I1|apply runs_apart; [auto|apply H]]|].
  split; [exact I2|]. split; [exact I3|]. split; [|exact I5].
  unfold depth, l. rewrite I4. clear - H. induction ts as [|t ts IH]; simpl; [lia|].
  apply Nat.max_lub; [apply H; simpl; auto|]. apply IH. intros x Hx. apply H. simpl; auto.
Qed.

Lemma first_use_In n l b : first_use n l = Some b -> In (n, b) l.
Proof.
  induction l as [|[m c] l IH]; simpl; [discriminate|]. destruct (beq n m) eqn:E; [|auto].
  apply beq_eq in E. subst. intros X. injection X as ->. auto.
Qed.

(** Two DOMs that show the same trees. *)
Definition pairs_fit (d : dom) (pr : bytes -> bool) : Prop :=
  forall x n, tag_name d x = Some n -> paired d x = Some (pr n).
Lemma same_strings_same a : same_strings a a.
Proof. split; [tauto|reflexivity]. Qed.
Lemma shows_similar pr d d' : pairs_fit d pr -> pairs_fit d' pr -> forall t x y, printable pr t ->
  shows d x t -> shows d' y t -> similar d d' x y.
Proof.
  intros A A' t. induction t as [s|n bs ps ts IH] using tree_induct; intros x y P H H'.
  - inversion H as [? ? Hc Hk|]; subst. inversion H' as [? ? Hc' Hk'|]; subst.
    apply (sim_node d d' x y [] []); auto; [|constructor].
    unfold text_content, content in Hc, Hc'. injection Hc as C1 C2 C3 C4 C5. injection Hc' as D1 D2 D3 D4 D5.
    assert (Pn : forall e z, kind e z = Some TText -> paired e z = None).
    { intros e z K. unfold kind in K. unfold paired. destruct (nth_error (nodes e) z) as [[i [] q]|]; try discriminate; auto. }
    split; [congruence|]. split; [congruence|]. split; [congruence|]. split; [now rewrite !Pn|].
    intros K. congruence.
  - inversion H as [|? ? ? ? l ? Hc Hk Hf]; subst. inversion H' as [|? ? ? ? l' ? Hc' Hk' Hf']; subst.
    unfold content in Hc, Hc'. injection Hc as C1 C2 C3 C4 C5. injection Hc' as D1 D2 D3 D4 D5.
    apply (sim_node d d' x y l l'); auto.
    + split; [congruence|]. split; [congruence|]. split; [congruence|].
      split; [now rewrite (A x n), (A' y n)|]. intros _. rewrite C4, D4, C5, D5.
      repeat split; auto using same_strings_same.
    + assert (Pt : forall t, In t ts -> printable pr t).
      { inversion P; subst; auto. intros t []. }
      clear - IH Hf Hf' Pt. revert l' Hf'. induction Hf as [|c t cs us Hc Hf IHf]; intros l' Hf'.
      * inversion Hf'. constructor.
      * inversion Hf' as [|c' t' cs' us' Hc' Hf2]; subst. inversion IH as [|? ? I1 I2]; subst.
        constructor; [apply I1; auto; apply Pt; simpl; auto|]. apply IHf; auto.
        intros u Hu. apply Pt. simpl; auto.
Qed.
Lemma shows_below d d' t : reachable d' -> forall x y z, shows d x t -> shows d' y t -> below_eq d' y z ->
  exists w, below_eq d x w /\ bool_attrs d w = bool_attrs d' z /\ attrs d w = attrs d' z.
Proof.
  intros R'. induction t as [s|n bs ps ts IH] using tree_induct; intros x y z H H' B.
  - inversion H as [? ? Hc Hk|]; subst. inversion H' as [? ? Hc' Hk'|]; subst.
    unfold text_content, content in Hc, Hc'. injection Hc as C1 C2 C3 C4 C5. injection Hc' as D1 D2 D3 D4 D5.
    inversion B as [|? c l ? Hl Hi]; subst.
    + exists x. split; [constructor|]. split; congruence.
    + rewrite (kids_unique d' R' y l [] Hl Hk') in Hi. destruct Hi.
  - inversion H as [|? ? ? ? l ? Hc Hk Hf]; subst. inversion H' as [|? ? ? ? l' ? Hc' Hk' Hf']; subst.
    unfold content in Hc, Hc'. injection Hc as C1 C2 C3 C4 C5. injection Hc' as D1 D2 D3 D4 D5.
    inversion B as [|? c m ? Hl Hi Hb]; subst.
    + exists x. split; [constructor|]. split; congruence.
    + rewrite (kids_unique d' R' y m l' Hl Hk') in Hi.
      assert (G : exists c0, In c0 l /\ exists w, below_eq d c0 w /\ bool_attrs d w = bool_attrs d' z /\ attrs d w = attrs d' z).
      { clear - IH Hf Hf' Hi Hb. revert l' Hf' Hi. induction Hf as [|c1 t cs us Hc Hf IHf]; intros l' Hf' Hi.
        - inversion Hf'; subst. destruct Hi.
        - inversion Hf' as [|c' t' cs' us' Hc' Hf2]; subst. inversion IH as [|? ? I1 I2]; subst.
          destruct Hi as [->|Hi].
          + exists c1. split; [simpl; auto|]. eapply I1; eauto.
          + destruct (IHf I2 cs' Hf2 Hi) as (c0 & Hc0 & G). exists c0. split; [simpl; auto|auto]. }
      destruct G as (c0 & Hc0 & w & Hw & G). exists w. split; [|exact G]. eapply below_step; eauto.
Qed.
Scheme preorder_mut := Minimality for preorder Sort Prop with preorders_mut := Minimality for preorders Sort Prop.
Lemma preorder_below d n w : preorder d n w -> forall x, In x w -> below_eq d n x.
Proof.
  apply (preorder_mut d (fun n w => forall x, In x w -> below_eq d n x)
    (fun cs w => forall x, In x w -> exists c, In c cs /\ below_eq d c x)).
  - intros p cs l Hc _ IH x [<-|Hx]; [constructor|]. destruct (IH x Hx) as (c & Hi & Hb). eapply below_step; eauto.
  - intros x [].
  - intros c cs l ls _ IH1 _ IH2 x Hx. apply in_app_or in Hx as [Hx|Hx].
    + exists c. split; [simpl; auto|auto].
    + destruct (IH2 x Hx) as (c' & Hi & Hb). exists c'. split; [simpl; auto|auto].
Qed.
Lemma below_node d (R : reachable d) p l c x : children d p l -> In c l -> below_eq d c x -> node_id d x.
Proof.
  intros Hk Hi B. revert p l Hk Hi. induction B as [c|c c' l' x Hc Hi' B IH]; intros p l Hk Hi.
  - destruct (child_live d R p l c Hk Hi) as [? _]. assumption.
  - exact (IH c l' Hc Hi').
Qed.

Lemma round_trip d pr ts s : reachable d -> agrees d pr -> shows_kids d 1 ts -> printable_doc pr ts ->
  prints d 1 s ->
  ends_in (create_dom s) (fun r => exists d', r = Some d' /\ shows_kids d' 1 ts /\ prints d' 1 s /\ similar d d' 1 1 /\
     (few_attributes d -> exists i j, dom_equals d d' = Ok (CSuccess, i, j))).
Proof.
  intros R A S P Hs. rewrite (doc_prints pr d R A ts s S Hs). clear Hs.
  destruct (doc_items pr ts P) as (W & Es & Ef & Ed & Eo). set (l := map (tree_item pr) ts) in *.
  assert (Ho : forall o : opened, In o [] -> opened_ok o) by (intros o []).
  pose proof (create_pairs l [] W Ho) as C.
  assert (E1 : doc_src l [] = flat_map (tree_text pr) ts).
  { unfold doc_src. change (opened_src []) with (@nil N). rewrite app_nil_r. exact Es. }
  rewrite E1 in C. destruct (create_dom (flat_map (tree_text pr) ts)) as [r|u|j|] eqn:Ec; try exact C.
  destruct C as [C _]. cbn [ends_in].
  assert (Dd : doc_depth l [] <= 255) by (unfold doc_depth; cbn [opened_depth]; rewrite Nat.max_0_r; exact Ed).
  assert (Et : doc_trees l [] = ts) by (unfold doc_trees; cbn [opened_trees]; rewrite app_nil_r; exact Ef).
  assert (Eop : doc_opens l [] = opens l) by (unfold doc_opens; cbn [opened_opens flat_map]; apply app_nil_r).
  destruct (C Dd) as (d' & -> & S' & T' & K'). rewrite Et in S'. rewrite Eop in T'.
  exists d'. split; auto. split; auto.
  assert (R' : reachable d') by (apply (reach_create _ _ Ec)).
  assert (Fd : pairs_fit d pr).
  { intros x n Hx. destruct (paired_some d x n Hx) as (b & Hb). rewrite Hb. f_equal. eapply A; eauto. }
  assert (Fd' : pairs_fit d' pr).
  { intros x n Hx. pose proof (T' x n Hx) as E. destruct (paired_some d' x n Hx) as (b & Hb).
    rewrite Hb. f_equal. apply Eo. apply first_use_In. congruence. }
  split.
  { destruct (print_dom_ok d' R') as (ps & _ & Q).
    rewrite <- (doc_prints pr d' R' ltac:(intros x n b Hx Hb; rewrite (Fd' x n Hx) in Hb; congruence) ts _ S' Q).
    exact Q. }
  destruct S as (k & Hk & Hf). destruct S' as (k' & Hk' & Hf').
  destruct (reachable_good d R) as (g & G). destruct (reachable_good d' R') as (g' & G').
  assert (Sim : similar d d' 1 1).
  { apply (sim_node d d' 1 1 k k'); auto.
    - pose proof (ty_one _ _ (g_ty _ _ G)) as O. pose proof (ty_one _ _ (g_ty _ _ G')) as O'.
      assert (Q : forall e, kind e 1 = Some TRoot -> text_of e 1 = None /\ tag_name e 1 = None /\ paired e 1 = None).
      { intros e K. unfold kind in K. unfold text_of, tag_name, paired.
        destruct (nth_error (nodes e) 1) as [[i [] q]|]; try discriminate; auto. }
      destruct (Q d O) as (Q1 & Q2 & Q3). destruct (Q d' O') as (Q1' & Q2' & Q3').
      split; [congruence|]. split; [congruence|]. split; [congruence|]. split; [congruence|]. intros X. congruence.
    - destruct P as [P _]. clear - Hf Hf' Fd Fd' P. revert k' Hf'.
      induction Hf as [|c t cs us Hc Hf IHf]; intros k' Hf'.
      + inversion Hf'. constructor.
      + inversion Hf' as [|c' t' cs' us' Hc' Hf2]; subst. constructor.
        * eapply shows_similar; eauto. apply P. simpl; auto.
        * apply IHf; auto. intros u Hu. apply P. simpl; auto. }
  split; [exact Sim|]. intros Few. clearbody l. clear Es Ef Et E1.
  assert (Few' : few_attributes d').
  { intros x Hx. destruct (u_create_tree _ _ Ec) as [Pre _].
    assert (B : below_eq d' 1 x).
    { apply (preorder_below _ _ _ Pre). apply in_seq. unfold node_id in Hx. lia. }
    inversion B as [|? c m ? Hl Hi Hb]; subst.
    - unfold same_content, content in K'. injection K' as _ _ _ K4 K5. rewrite K4, K5. simpl. lia.
    - rewrite (kids_unique d' R' 1 m k' Hl Hk') in Hi.
      assert (Z : exists c0 w, In c0 k /\ below_eq d c0 w /\ bool_attrs d w = bool_attrs d' x /\ attrs d w = attrs d' x).
      { clear - Hf Hf' Hi Hb R'. revert k' Hf' Hi. induction Hf as [|c1 t cs us Hc Hf IHf]; intros k' Hf' Hi.
        - inversion Hf'; subst. destruct Hi.
        - inversion Hf' as [|c' t' cs' us' Hc' Hf2]; subst. destruct Hi as [->|Hi].
          + destruct (shows_below d d' t R' c1 c x Hc Hc' Hb) as (w & Hw & Z). exists c1, w. simpl; auto.
          + destruct (IHf cs' Hf2 Hi) as (c0 & w & H0 & Z). exists c0, w. simpl; auto. }
      destruct Z as (c0 & w & H0 & Hw & Z1 & Z2). rewrite <- Z1, <- Z2. apply Few.
      eapply below_node; eauto. }
  destruct (equals_exact d d' R R' Few Few') as (st & i & j & E & Hst & _).
  exists i, j. rewrite E. now rewrite (proj2 Hst Sim).
Qed.


(** Every DOM has such a flag function. *)
Lemma agrees_exists d : reachable d -> exists pr, agrees d pr.
Proof.
  intros R. destruct (reachable_good d R) as (k & G). pose proof (g_reg _ _ G) as Rg.
  exists (fun n => match first_use n (tl (tag_pairs d)) with Some b => b | None => false end).
  intros x n b Hn Hb. unfold tag_name in Hn. unfold paired in Hb.
  pose proof (ty_pay _ _ (g_ty _ _ G) x) as Ty.
  destruct (nth_error (nodes d) x) as [[i [] [t| |]]|]; try discriminate.
  destruct (Ty _ eq_refl) as (t' & Et & Ht). cbn [n_pay] in Et. injection Et as <-.
  destruct (nth_error (tag_reg d) t) as [r|] eqn:E; [|discriminate].
  injection Hn as <-. injection Hb as <-.
  destruct (ri_tag _ Rg) as (reg & Ereg & _ & _ & ND). unfold tag_pairs.
  destruct (tag_reg d) as [|r0 regs]; [discriminate|]. cbn [map] in Ereg. injection Ereg as _ Er.
  destruct t as [|t]; [congruence|]. cbn [nth_error] in E. cbn [map tl].
  rewrite (first_use_in (t_name r) (t_paired r)); auto.
  - rewrite map_map. subst reg. exact ND.
  - apply in_map_iff. exists r. split; auto. eapply nth_error_In; eauto.
Qed.

Lemma round_trip_user d pr ts s : reachable d -> agrees d pr -> shows_kids d 1 ts -> printable_doc pr ts ->
  prints d 1 s ->
  ends_in (create_dom s) (fun r => exists d', r = Some d' /\ shows_kids d' 1 ts /\ prints d' 1 s /\
     (few_attributes d -> exists i j, dom_equals d d' = Ok (CSuccess, i, j))).
Proof.
  intros R A S P Hs. pose proof (round_trip d pr ts s R A S P Hs) as H.
  destruct (create_dom s); auto. destruct H as (d' & E & H1 & H2 & _ & H3). exists d'. auto.
Qed.
Lemma normal_form l os pr d : well_formed Root l -> (forall o, In o os -> opened_ok o) ->
  (forall n b, In (n, b) (doc_opens l os) -> b = pr n) -> printable_doc pr (doc_trees l os) ->
  create_dom (doc_src l os) = Ok (Some d) ->
  exists s, prints d 1 s /\
    ends_in (create_dom s) (fun r => exists d', r = Some d' /\ shows_kids d' 1 (doc_trees l os) /\ prints d' 1 s).
Proof.
  intros W Ho Hp P E. pose proof (create_pairs l os W Ho) as C. rewrite E in C. destruct C as [C1 C2].
  assert (R : reachable d) by (apply (reach_create _ _ E)).
  destruct (le_lt_dec (doc_depth l os) 255) as [Hd|Hd]; [|specialize (C2 Hd); discriminate].
  destruct (C1 Hd) as (d0 & E0 & S & T & _). injection E0 as <-.
  assert (A : agrees d pr).
  { intros x n b Hx Hb. rewrite (T x n Hx) in Hb. apply Hp. now apply first_use_In. }
  destruct (print_dom_ok d R) as (ps & _ & Q). exists (concat ps). split; auto.
  pose proof (round_trip d pr _ _ R A S P Q) as H.
  destruct (create_dom (concat ps)); auto. destruct H as (d' & E' & H1 & H2 & _). exists d'. auto.
Qed.
Lemma print_parse_print d pr ts ps : reachable d -> agrees d pr -> shows_kids d 1 ts -> printable_doc pr ts ->
  print_dom d = Ok ps ->
  ends_in (create_dom (concat ps)) (fun r => exists d', r = Some d' /\
     (exists ps', print_dom d' = Ok ps' /\ concat ps' = concat ps) /\
     (few_attributes d -> exists i j, dom_equals d d' = Ok (CSuccess, i, j))).
Proof.
  intros R A S P E. destruct (print_dom_ok d R) as (ps0 & E0 & Q). rewrite E in E0. injection E0 as <-.
  pose proof (round_trip_user d pr ts _ R A S P Q) as H.
  destruct (create_dom (concat ps)) as [r| | |] eqn:C; auto.
  destruct H as (d' & -> & _ & H2 & H3). exists d'. split; auto. split; auto.
  assert (R' : reachable d') by (apply (reach_create _ _ C)).
  destruct (print_dom_ok d' R') as (ps' & E' & Q'). exists ps'. split; auto.
  eapply prints_unique; eauto.
Qed.

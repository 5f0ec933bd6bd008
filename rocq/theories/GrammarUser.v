(** * Well-formed documents and fragments through the public interface. *)
From Coq Require Import List NArith Arith Bool Lia.
From Verif Require Import Base TrieModel DomModel ParserModel EditModel DomSpec ApiSpec CompareSpec GrammarSpec
  Lemmas TrieProofs Tables Inv Surgery Attach Link RegProofs ParseSafe ParseTree ParseLoop
  Walk EditProofs EditOps EditHtml ApiProofs NoJump EditUser EditUserHtml
  GrammarScan GrammarText GrammarTag GrammarLoop.
Import ListNotations.
Local Open Scope nat_scope.

Lemma safe_ends {A} (o : outcome A) Q : safe False Q o -> ends_in o Q.
Proof. destruct o as [a|u|j|]; simpl; auto. destruct u; auto. Qed.

Lemma kforest_shows lo hi d k xs ts : Inv d k -> kforest lo hi d k xs ts -> Forall2 (shows d) xs ts.
Proof.
  intros I F. eapply Forall2_map_r; [exact F|]. apply Forall_forall. intros tr _ x H.
  eapply kshows_shows; eauto.
Qed.

(** ** The tag registry after parsing *)
Lemma first_use_none n l : first_use n l = None <-> ~ In n (map fst l).
Proof.
  induction l as [|[m b] l IH]; simpl; [split; auto|]. destruct (beq n m) eqn:E.
  - apply beq_eq in E. subst. split; [discriminate|tauto].
  - rewrite IH. assert (m <> n) by (intros ->; rewrite beq_refl in E; discriminate). tauto.
Qed.
Lemma first_use_app n l m : first_use n (l ++ m) =
  match first_use n l with Some b => Some b | None => first_use n m end.
Proof. induction l as [|[x b] l IH]; simpl; auto. destruct (beq n x); auto. Qed.
Lemma first_use_in n b (l : list (bytes * bool)) : NoDup (map fst l) -> In (n, b) l -> first_use n l = Some b.
Proof.
  induction l as [|[m c] l IH]; simpl; intros ND H; [tauto|]. inversion ND as [|? ? N1 N2]; subst.
  destruct H as [E|H].
  - injection E as -> ->. now rewrite beq_refl.
  - destruct (beq n m) eqn:E; auto. apply beq_eq in E. subst. exfalso. apply N1.
    apply in_map_iff. exists (m, b). auto.
Qed.
Lemma notes_spec e0 evs : forall l, NoDup (map fst l) ->
  exists l', notes (e0 :: l) evs = e0 :: l' /\ NoDup (map fst l') /\
    forall n, first_use n l' = match first_use n l with Some b => Some b | None => first_use n evs end.
Proof.
  induction evs as [|[m b] evs IH]; intros l ND.
  - exists l. split; auto. split; auto. intros n. simpl. now destruct (first_use n l).
  - unfold notes. cbn [fold_left]. unfold note at 2. cbn [tl fst].
    destruct (existsb (fun x => beq m (fst x)) l) eqn:X.
    + destruct (IH l ND) as (l' & E & N' & F). exists l'. split; auto. split; auto.
      intros n. rewrite F. destruct (first_use n l) eqn:Fn; auto. simpl.
      destruct (beq n m) eqn:B; auto. apply beq_eq in B. subst. apply noted_in in X.
      apply first_use_none in Fn. tauto.
    + assert (NI : ~ In m (map fst l)) by (intros H; apply noted_in in H; congruence).
      destruct (IH (l ++ [(m, b)])) as (l' & E & N' & F).
      { rewrite map_app. simpl. apply nodup_app; auto.
        - repeat constructor. intros [].
        - intros x Hx [<-|[]]. auto. }
      exists l'. split; [exact E|]. split; auto. intros n. rewrite F, first_use_app. simpl.
      destruct (first_use n l); auto. destruct (beq n m); auto.
Qed.
Lemma tags_from_notes d k evs e0 : Good d k -> tag_pairs d = notes [e0] evs -> tags_as d evs.
Proof.
  intros G E x n Hx. pose proof (g_reg _ _ G) as R. pose proof (ty_pay _ _ (g_ty _ _ G) x) as Ty.
  destruct (notes_spec e0 evs [] (NoDup_nil _)) as (l' & El & ND & F). simpl in F.
  rewrite El in E. rewrite <- F. unfold tag_name in Hx. unfold paired.
  destruct (nth_error (nodes d) x) as [[i [] [t| |]]|]; try discriminate.
  destruct (Ty _ eq_refl) as (t' & Et & Ht). cbn [n_pay] in Et. injection Et as <-.
  destruct (nth_error (tag_reg d) t) as [r|] eqn:Er; [|discriminate]. injection Hx as <-.
  symmetry. apply first_use_in; auto.
  destruct (ri_tag _ R) as (reg & Ereg & _). unfold tag_pairs in E.
  destruct (tag_reg d) as [|r0 regs]; [discriminate|]. simpl in E, Ereg.
  injection E as _ E.
  destruct t as [|t]; simpl in Er; [congruence|].
  rewrite <- E. apply in_map_iff. exists r. split; auto. eapply nth_error_In; eauto.
Qed.

Lemma create_pairs l os : well_formed Root l -> (forall o, In o os -> opened_ok o) ->
  ends_in (create_dom (doc_src l os)) (fun r =>
    (doc_depth l os <= 255 -> exists d, r = Some d /\ shows_kids d 1 (doc_trees l os) /\
                                tags_as d (doc_opens l os) /\ same_content empty_dom d 1) /\
    (255 < doc_depth l os -> r = None)).
Proof.
  intros Hw Ho. apply safe_ends. unfold create_dom, parse_root.
  assert (M : pmode 2 (Par 1) [(1, [])]) by (left; auto).
  eapply safe_bind.
  { apply (parse_whole 2 empty_dom no_kids (Par 1) [(1, [])] M (doc_src l os) None
             ltac:(left; discriminate)
             l os Root [(1, [])] 1 empty_dom no_kids ps_root eq_refl); auto.
    split; reflexivity. }
  intros [ok d]. change (length [(1, @nil N)]) with 1. fold (doc_depth l os).
  intros [(-> & Hd & k & xs & W & X & F)|(-> & Hd)]; cbn [safe]; unfold max_depth in Hd.
  - split; [|lia]. intros _. exists d. split; auto.
    pose proof (g_inv _ _ (pw_good _ _ _ _ _ _ W)) as I. split; [exists xs; split|split].
    + apply (children_k d k 1); auto. rewrite (e_new _ _ _ _ _ _ _ X). reflexivity.
    + eapply kforest_shows; eauto.
    + eapply (tags_from_notes d k _ ([], false)); [apply (pw_good _ _ _ _ _ _ W)|].
      rewrite (e_tags _ _ _ _ _ _ _ X). reflexivity.
    + apply (e_content _ _ _ _ _ _ _ X). simpl. lia.
  - split; [lia|]. auto.
Qed.

Lemma create_wf l os : well_formed Root l -> (forall o, In o os -> opened_ok o) ->
  ends_in (create_dom (doc_src l os)) (fun r =>
    (doc_depth l os <= 255 -> exists d, r = Some d /\ shows_kids d 1 (doc_trees l os)) /\
    (255 < doc_depth l os -> r = None)).
Proof.
  intros Hw Ho. pose proof (create_pairs l os Hw Ho) as H.
  destruct (create_dom (doc_src l os)); simpl in *; auto. destruct H as [H1 H2]. split; auto.
  intros Hd. destruct (H1 Hd) as (d & E & S & _). eauto.
Qed.

Lemma create_wf_total l os : well_formed Root l -> (forall o, In o os -> opened_ok o) ->
  (N.of_nat (length (doc_src l os)) <= 65533)%N ->
  (doc_depth l os <= 255 -> exists d, create_dom (doc_src l os) = Ok (Some d) /\
     shows_kids d 1 (doc_trees l os)) /\
  (255 < doc_depth l os -> create_dom (doc_src l os) = Ok None).
Proof.
  intros Hw Ho Hl. pose proof (create_wf l os Hw Ho) as H.
  pose proof (nj_create_dom _ Hl) as J.
  destruct (create_dom (doc_src l os)) as [r|u|j|]; simpl in H, J; try tauto.
  destruct H as [H1 H2]. split; intros Hd.
  - destruct (H1 Hd) as (d & -> & S). eauto.
  - now rewrite (H2 Hd).
Qed.

(** ** Fragments *)
Lemma frag_wf d bl l os : reachable d -> well_formed Loose l -> (forall o, In o os -> opened_ok o) ->
  forall k, Good d k ->
  safe False (fun '(ok, d1) =>
     (ok = true /\ doc_depth l os <= 256 /\ exists k1 xs, ParseLoop.PW (length (nodes d)) d k (Flo (length (nodes d))) d1 k1 /\
        k1 (Flo (length (nodes d))) = xs /\
        kforest (length (nodes d)) (length (nodes d1)) d1 k1 xs (doc_trees l os)) \/
     (ok = false /\ 256 < doc_depth l os))
   (parse_extra (Some bl) (doc_src l os) d).
Proof.
  intros R Hw Ho k G. unfold parse_extra. set (n := length (nodes d)).
  pose proof (g_inv _ _ G) as I.
  assert (M : pmode n (Flo n) []).
  { right. pose proof (inv_len _ _ I). auto. }
  eapply safe_imp.
  - apply (parse_whole n d k (Flo n) [] M (doc_src l os) (Some bl)
             ltac:(right; discriminate) l os Loose [] 0 d k (ps_frag d k G) eq_refl); auto.
    exact Logic.I.
  - intros [ok d1]. fold (doc_depth l os). unfold max_depth. simpl.
    intros [(-> & Hd & k1 & xs & W & X & F)|(-> & Hd)]; [left|right]; auto.
    split; auto. split; auto. exists k1, xs. split; auto. split; auto.
    rewrite (e_new _ _ _ _ _ _ _ X). unfold n. rewrite (flo_empty d k) by auto. reflexivity.
Qed.

Lemma shows_keep lo hi d1 k1 d' gone : Inv d1 k1 ->
  (forall y, lo <= y < hi -> ~ In y gone -> same_content d1 d' y) ->
  (forall y l, lo <= y < hi -> children d1 y l -> children d' y l) ->
  (forall q y, lo <= q < hi -> In y (k1 (Par q)) -> ~ In y gone) ->
  forall tr x, kshows lo hi d1 k1 x tr -> ~ In x gone -> shows d' x tr.
Proof.
  intros I C K U. induction tr as [s|tag bs ps ts IH] using tree_induct; intros x H Hx;
    inversion H as [x0 s0 Hr Ht Hk|x0 tag0 bs0 ps0 ts0 Hr Hc H5]; subst.
  - apply shows_text.
    + unfold text_content in *. rewrite <- Ht. apply C; auto.
    + apply K; auto. apply (children_k d1 k1 x); auto.
  - apply shows_elem with (l := k1 (Par x)).
    + rewrite <- Hc. apply C; auto.
    + apply K; auto. apply (children_k d1 k1 x); auto.
    + assert (G : forall y, In y (k1 (Par x)) -> ~ In y gone) by (intros; eapply U; eauto).
      revert G IH. clear - H5. induction H5; intros G IH; constructor; inversion IH; subst.
      * match goal with HH : forall z, kshows _ _ _ _ z y -> _ |- _ => apply HH end; auto.
        apply G. simpl; auto.
      * apply IHForall2; auto. intros z Hz. apply G. simpl; auto.
Qed.

(** A fragment [h] that is known to give the trees [ts]. *)
Section Given.
  Context (d : dom) (HR : reachable d) (bl h : bytes) (ts : list tree).
  Local Notation n := (length (nodes d)).
  Context (Hgen : forall k, Good d k -> safe False (fun '(ok, d1) => ok = true /\
     exists k1 xs, ParseLoop.PW n d k (Flo n) d1 k1 /\ k1 (Flo n) = xs /\
        kforest n (length (nodes d1)) d1 k1 xs ts) (parse_extra (Some bl) h d)).
  Context (Hroom : room_for d (length h)).
  Context (Hne : ts <> []).

  Lemma frag_done k : Good d k -> exists d1 k1 rest, parse_extra (Some bl) h d = Ok (true, d1) /\
    n < length (nodes d1) /\ ParseLoop.PW n d k (Flo n) d1 k1 /\ k1 (Flo n) = n :: rest /\
    sibs d1 n (n :: rest) /\ kforest n (length (nodes d1)) d1 k1 (n :: rest) ts.
  Proof.
    intros G. pose proof (Hgen k G) as S.
    pose proof (nj_parse (Some bl) h 0 [] d (room_good _ _ _ G Hroom)) as J.
    fold (parse_extra (Some bl) h d) in J.
    destruct (parse_extra (Some bl) h d) as [[ok d1]|u|j|]; simpl in S, J; try tauto;
      [|destruct u; contradiction].
    destruct S as (-> & k1 & xs & W & Ek & F).
    pose proof (pw_good _ _ _ _ _ _ W) as G1. pose proof (g_inv _ _ G1) as I.
    pose proof (pw_pre _ _ _ _ _ _ W) as PR. rewrite Ek in PR.
    destruct xs as [|a xs]; [inversion F; congruence|].
    assert (Hlt : n < length (nodes d1)).
    { inversion F as [|? ? ? ? Hh]; subst. inversion Hh; subst; lia. }
    assert (a = n).
    { simpl in PR. rewrite pre_eq in PR by apply G1.
      destruct (length (nodes d1) - n) eqn:?; [lia|]. simpl in PR. congruence. }
    subst a. exists d1, k1, xs. split; auto. split; auto. split; auto. split; auto.
    split; auto. apply (sibs_at d1 k1 (Flo n) [] (n :: xs)); auto.
  Qed.

  Lemma old_kept_from d1 d' p gone ex : parse_extra (Some bl) h d = Ok (true, d1) ->
    same_children_but d1 d' [p] -> keeps_but d1 d' gone ->
    (forall q, q < n -> In q gone -> In q ex) -> old_kept d d' p ex.
  Proof.
    intros E C K U. destruct (u_fragment d HR bl h true d1 E) as (_ & A & Bc & _). split.
    - intros q m Hq Hp. rewrite (C q m) by (simpl; intuition congruence). now apply A.
    - intros q Hq Hx. eapply same_content_trans; [apply Bc; auto|]. apply K. intros Hin.
      apply Hx. auto.
  Qed.

  Lemma placed_shows d1 k k1 rest d' p gone : ParseLoop.PW n d k (Flo n) d1 k1 ->
    k1 (Flo n) = n :: rest -> p < n -> same_children_but d1 d' [p] -> keeps_but d1 d' gone ->
    (forall c, In c gone -> c < n \/ In c (n :: rest)) ->
    forall xs us, kforest n (length (nodes d1)) d1 k1 xs us -> (forall x, In x xs -> ~ In x gone) ->
    Forall2 (shows d') xs us.
  Proof.
    intros W Ek Hp C K U xs us F Hx. pose proof (g_inv _ _ (pw_good _ _ _ _ _ _ W)) as I.
    revert Hx. induction F as [|x tr xs us H F IH]; intros Hx; constructor.
    - eapply (shows_keep n (length (nodes d1)) d1 k1 d' gone I); eauto.
      + intros y l0 Hy Hc. apply C; auto. simpl. lia.
      + intros q y Hq Hy Hg. pose proof (inv_kw _ _ I) as KW.
        pose proof (kw_order _ _ KW _ _ Hy) as Oy.
        destruct (U y Hg) as [L|L]; [lia|].
        rewrite <- Ek in L. pose proof (kw_disj _ _ KW _ _ _ Hy L) as Q. discriminate.
      + apply Hx. simpl; auto.
    - apply IH. intros z Hz. apply Hx. simpl; auto.
  Qed.

  Lemma kshows_text_of lo hi d1 k1 x tr : kshows lo hi d1 k1 x tr ->
    match tr with Txt s => text_of d1 x = Some s | Elem _ _ _ _ => text_of d1 x = None end.
  Proof.
    intros H. inversion H as [x0 s0 Hr Ht Hk|x0 tag0 bs0 ps0 ts0 Hr Hc H5]; subst.
    - unfold text_content, content in Ht. congruence.
    - unfold content in Hc. congruence.
  Qed.

  Lemma retexted_old d1 d' c s : parse_extra (Some bl) h d = Ok (true, d1) -> c < n ->
    retexted d1 d' c s -> retexted d d' c s.
  Proof.
    intros E Hc (A & B & C & D). destruct (u_fragment d HR bl h true d1 E) as (_ & _ & S & _).
    pose proof (S c Hc) as X. unfold same_content, content in X. injection X as X1 X2 X3 X4 X5.
    repeat split; congruence.
  Qed.

    Lemma kforest_ge lo hi d1 k1 xs us : kforest lo hi d1 k1 xs us -> forall x, In x xs -> lo <= x.
    Proof.
      intros Ft. induction Ft as [|y tr ys us Hy Ft IH]; simpl; [tauto|].
      intros z [<-|Hz]; auto. inversion Hy; subst; lia.
    Qed.

    Lemma kforest_last lo hi d1 k1 xs x us : kforest lo hi d1 k1 (xs ++ [x]) us ->
      exists us' tr, us = us' ++ [tr] /\ kshows lo hi d1 k1 x tr /\ kforest lo hi d1 k1 xs us'.
    Proof.
      intros H. apply Forall2_app_inv_l in H as (u1 & u2 & H1 & H2 & ->).
      inversion H2 as [|? tr ? ? Hh Hn]; subst. inversion Hn; subst. eauto.
    Qed.

  Section Place.
    Context (p : nat) (ks : list nat) (Hp : node_id d p) (Hks : children d p ks).

    Lemma kids_old c : In c ks -> c < n.
    Proof.
      intros H. destruct (reachable_good d HR) as (k & G). pose proof (g_inv _ _ G) as I.
      apply (children_k d k p) in Hks; auto. subst ks. apply (kw_bound _ _ (inv_kw _ _ I)) in H. lia.
    Qed.

    Lemma a_append_plain : no_text_end d ks \/ (forall s r, ts <> Txt s :: r) ->
      exists d' tops, append_html (Some bl) p h d = Ok (n, d') /\
        children d' p (ks ++ tops) /\ Forall2 (shows d') tops ts /\ old_kept d d' p [].
    Proof.
      intros H. destruct (reachable_good d HR) as (k & G).
      destruct (frag_done k G) as (d1 & k1 & rest & E & L & W & Ek & Sb & F).
      destruct (u_append_html_plain d HR bl h d1 E L _ Sb p ks Hp Hks) as (d' & E' & C' & S' & K').
      { destruct H as [H|H]; auto. right. intros l0 c Ec. injection Ec as <- <-.
        inversion F as [|? tr ? ? Hh _ E1 E2]; subst. apply kshows_text_of in Hh.
        destruct tr; auto. exfalso. eapply H. reflexivity. }
      exists d', (n :: rest). split; auto. split; auto. split.
      - eapply (placed_shows d1 k k1 rest d' p []); eauto; [destruct Hp; lia|simpl; tauto].
      - eapply old_kept_from; eauto.
    Qed.

    Lemma a_append_merge c old s ts' : ends_with_text d ks c old -> ts = Txt s :: ts' ->
      exists d' tops, append_html (Some bl) p h d = Ok (hd c tops, d') /\
        children d' p (ks ++ tops) /\ Forall2 (shows d') tops ts' /\
        retexted d d' c (old ++ [cSP] ++ s) /\ old_kept d d' p [c].
    Proof.
      intros H Ets. destruct (reachable_good d HR) as (k & G).
      destruct (frag_done k G) as (d1 & k1 & rest & E & L & W & Ek & Sb & F).
      rewrite Ets in F. inversion F as [|? ? ? ? Hh Ft]; subst.
      apply kshows_text_of in Hh.
      assert (Hc : c < n).
      { destruct H as [(l0 & El) _]. apply kids_old. rewrite El. apply in_or_app. simpl. auto. }
      destruct (u_append_html_merge d HR bl h d1 E L _ Sb p ks Hp Hks c old s H Hh)
        as (d' & E' & C' & T' & _ & S' & K').
      pose proof (kw_nodup _ _ (inv_kw _ _ (g_inv _ _ (pw_good _ _ _ _ _ _ W))) (Flo n)) as ND.
      rewrite Ek in ND. inversion ND as [|? ? N1 N2]; subst.
      exists d', rest. split; auto. split; auto. split.
      - eapply (placed_shows d1 k k1 rest d' p [c; n]); eauto; [destruct Hp; lia| |].
        + intros x [<-|[<-|[]]]; simpl; auto.
        + intros x Hx [<-|[<-|[]]]; auto.
          pose proof (kforest_ge _ _ _ _ _ _ Ft c Hx). lia.
      - split; [eapply retexted_old; eauto|]. eapply old_kept_from; eauto.
        intros q Hq [<-|[<-|[]]]; simpl; auto. lia.
    Qed.


    Lemma a_prepend_plain : no_text_start d ks \/ (forall s r, ts <> r ++ [Txt s]) ->
      exists d' tops, prepend_html (Some bl) p h d = Ok (n, d') /\
        children d' p (tops ++ ks) /\ Forall2 (shows d') tops ts /\ old_kept d d' p [].
    Proof.
      intros H. destruct (reachable_good d HR) as (k & G).
      destruct (frag_done k G) as (d1 & k1 & rest & E & L & W & Ek & Sb & F).
      destruct (u_prepend_html_plain d HR bl h d1 E L _ Sb p ks Hp Hks) as (d' & E' & C' & S' & K').
      { destruct H as [H|H]; auto. right. intros l0 c Ec.
        rewrite Ec in F. apply kforest_last in F as (us' & tr & Eu & Hh & _).
        apply kshows_text_of in Hh. destruct tr; auto. exfalso. eapply H. exact Eu. }
      exists d', (n :: rest). split; auto. split; auto. split.
      - eapply (placed_shows d1 k k1 rest d' p []); eauto; [destruct Hp; lia|simpl; tauto].
      - eapply old_kept_from; eauto.
    Qed.


    Lemma a_prepend_merge c old s ts' : starts_with_text d ks c old -> ts = ts' ++ [Txt s] ->
      exists d' tops, prepend_html (Some bl) p h d = Ok (hd c tops, d') /\
        children d' p (tops ++ ks) /\ Forall2 (shows d') tops ts' /\
        retexted d d' c (s ++ [cSP] ++ old) /\ old_kept d d' p [c].
    Proof.
      intros H Ets. destruct (reachable_good d HR) as (k & G).
      destruct (frag_done k G) as (d1 & k1 & rest & E & L & W & Ek & Sb & F).
      assert (Et : exists tops' a, n :: rest = tops' ++ [a]).
      { exists (removelast (n :: rest)), (last rest n). apply split_lst. }
      destruct Et as (tops' & a & Et). rewrite Et in F.
      pose proof (kforest_ge _ _ _ _ _ _ F) as Hge.
      apply kforest_last in F as (us' & tr & Eu & Hh & F).
      rewrite Ets in Eu. apply app_inj_tail in Eu as [<- <-].
      apply kshows_text_of in Hh.
      assert (Hc : c < n).
      { destruct H as [(l0 & El) _]. apply kids_old. rewrite El. simpl. auto. }
      destruct (u_prepend_html_merge d HR bl h d1 E L _ Sb p ks Hp Hks tops' a c old s Et H Hh)
        as (d' & E' & C' & T' & _ & S' & K').
      pose proof (kw_nodup _ _ (inv_kw _ _ (g_inv _ _ (pw_good _ _ _ _ _ _ W))) (Flo n)) as ND.
      rewrite Ek, Et in ND. apply NoDup_remove in ND as [_ ND]. rewrite app_nil_r in ND.
      assert (Ha : n <= a) by (apply Hge, in_or_app; simpl; auto).
      exists d', tops'. split; auto. split; auto. split.
      - eapply (placed_shows d1 k k1 rest d' p [c; a]); eauto; [destruct Hp; lia| |].
        + intros x [<-|[<-|[]]]; auto. right. rewrite Et. apply in_or_app. simpl; auto.
        + intros x Hx [<-|[<-|[]]]; auto.
          assert (n <= c) by (apply Hge, in_or_app; auto). lia.
      - split; [eapply retexted_old; eauto|]. eapply old_kept_from; eauto.
        intros q Hq [<-|[<-|[]]]; simpl; auto. lia.
    Qed.
  End Place.

  Lemma Forall2_tl {A B} (P : A -> B -> Prop) x y : Forall2 P x y -> Forall2 P (tl x) (tl y).
  Proof. intros H. destruct H; simpl; auto. Qed.
  Lemma Forall2_rl {A B} (P : A -> B -> Prop) x y : Forall2 P x y -> Forall2 P (removelast x) (removelast y).
  Proof.
    intros H. induction H as [|a b x y H F IH]; simpl; auto.
    destruct F; auto.
  Qed.
  Lemma in_rl (x : list nat) a : In a (removelast x) -> In a x.
  Proof. apply removelast_in. Qed.
  Lemma rl_last (x : list nat) a : NoDup (x ++ [a]) -> ~ In a (removelast (x ++ [a])).
  Proof.
    intros H. rewrite removelast_last. apply NoDup_remove in H as [_ H]. now rewrite app_nil_r in H.
  Qed.

  Lemma a_replace p c l1 l2 f g : children d p (l1 ++ c :: l2) ->
    first_goes d ts l1 f -> last_goes d ts l2 g -> (length ts = 1 -> f = None /\ g = None) ->
    cut_last g (cut_first f ts) <> [] ->
    exists d' tops, replace_with_html (Some bl) c h d = Ok (hd 0 tops, d') /\
      children d' p (l1 ++ tops ++ l2) /\
      Forall2 (shows d') tops (cut_last g (cut_first f ts)) /\
      got d d' f /\ got d d' g /\ kind d' c = Some TRemoved /\ ~ attached d' c /\
      old_kept d d' p (c :: got_ids f ++ got_ids g).
  Proof.
    intros Hc Hf Hg H1 Hn2. destruct (reachable_good d HR) as (k & G).
    destruct (frag_done k G) as (d1 & k1 & rest & E & L & W & Ek & Sb & F).
    pose proof (kforest_ge _ _ _ _ _ _ F) as Hge.
    assert (Et : exists tops' a, n :: rest = tops' ++ [a]).
    { exists (removelast (n :: rest)), (last rest n). apply split_lst. }
    destruct Et as (tops' & a & Et).
    assert (Hlen : length (n :: rest) = length ts).
    { clear - F. induction F; simpl; auto. }
    assert (Hk : forall x, In x (l1 ++ c :: l2) -> x < n).
    { intros x Hx. pose proof (g_inv _ _ G) as I. apply (children_k d k p) in Hc; auto.
      rewrite Hc in Hx. apply (kw_bound _ _ (inv_kw _ _ I)) in Hx. lia. }
    assert (Hp : p < n).
    { pose proof (g_inv _ _ G) as I. pose proof Hc as Hc'. apply (children_k d k p) in Hc'; auto.
      assert (Hin : In c (k (Par p))) by (rewrite <- Hc'; apply in_or_app; right; simpl; auto).
      pose proof (kw_order _ _ (inv_kw _ _ I) _ _ Hin). specialize (Hk c ltac:(apply in_or_app; right; simpl; auto)). lia. }
    assert (F1 : first_merge d d1 l1 (n :: rest) f).
    { destruct f as [[t s']|]; simpl in Hf |- *.
      - destruct Hf as (old & s & r & Ets & He & Es). exists old, s, n, rest. split; auto. split; auto.
        split; auto. rewrite Ets in F. inversion F as [|? ? ? ? Hh Ft]; subst.
        apply kshows_text_of in Hh. exact Hh.
      - destruct Hf as [Hf|Hf]; auto. right. intros l0 x Ex. injection Ex as <- <-.
        inversion F as [|? tr ? ? Hh _ E1 E2]; subst. apply kshows_text_of in Hh.
        destruct tr; auto. exfalso. eapply Hf. reflexivity. }
    assert (G1 : last_merge d d1 l2 (n :: rest) g).
    { pose proof F as F0. rewrite Et in F0. apply kforest_last in F0 as (us' & tr & Eu & Hh & _).
      apply kshows_text_of in Hh. destruct g as [[t s']|]; simpl in Hg |- *.
      - destruct Hg as (old & s & r & Ets & He & Es). exists old, s, a, tops'. split; auto.
        split; auto. split; auto. rewrite Ets in Eu. apply app_inj_tail in Eu as [<- <-]. exact Hh.
      - destruct Hg as [Hg|Hg]; auto. right. intros l0 x Ex. rewrite Et in Ex.
        apply app_inj_tail in Ex as [<- <-]. destruct tr; auto. exfalso. eapply Hg. exact Eu. }
    destruct (u_replace_html d HR bl h d1 E L _ Sb p c l1 l2 Hc f g F1 G1) as
      (d' & E' & C' & S' & K1' & K2' & M1 & M2 & Kp).
    { rewrite Hlen. exact H1. }
    { intros X. apply Hn2. unfold cut_first, cut_last.
      assert (FF : Forall2 (kshows n (length (nodes d1)) d1 k1)
        (cut_last g (cut_first f (n :: rest))) (cut_last g (cut_first f ts))).
      { unfold cut_first, cut_last. destruct f, g; auto using Forall2_tl, Forall2_rl. }
      unfold cut_first, cut_last in FF. simpl tl in X. simpl tl in FF. rewrite X in FF. inversion FF. auto. }
    set (A := cut_last g (cut_first f (n :: rest))).
    assert (FF : kforest n (length (nodes d1)) d1 k1 A (cut_last g (cut_first f ts))).
    { unfold A, cut_first, cut_last, kforest in *. destruct f, g; auto using Forall2_tl, Forall2_rl. }
    assert (Hfo : forall t s', f = Some (t, s') -> t < n).
    { intros t s' ->. destruct F1 as (old & s & a0 & r & _ & ((l0 & El) & _) & _). apply Hk.
      rewrite El. apply in_or_app. left. apply in_or_app. simpl; auto. }
    assert (Hgo : forall t s', g = Some (t, s') -> t < n).
    { intros t s' ->. destruct G1 as (old & s & a0 & r & _ & ((l0 & El) & _) & _). apply Hk.
      rewrite El. apply in_or_app. right. simpl; auto. }
    assert (Hcn : c < n) by (apply Hk; apply in_or_app; right; simpl; auto).
    assert (Hla : last (n :: rest) 0 = a).
    { rewrite Et. apply Coq.Lists.List.last_last. }
    assert (Hhd : hd 0 (n :: rest) = n) by reflexivity.
    rewrite Hla, Hhd in *.
    pose proof (kw_nodup _ _ (inv_kw _ _ (g_inv _ _ (pw_good _ _ _ _ _ _ W))) (Flo n)) as ND.
    rewrite Ek in ND.
    assert (Hann : n <= a) by (apply Hge; rewrite Et; apply in_or_app; simpl; auto).
    exists d', A. split; [exact E'|]. split; [exact C'|]. split.
    - eapply (placed_shows d1 k k1 rest d' p); [exact W|exact Ek|exact Hp|exact S'|exact Kp| |exact FF|].
      + intros x [<-|Hx]; auto. apply in_app_or in Hx as [Hx|Hx].
        * destruct f as [[t s']|]; simpl in Hx; [|tauto]. destruct Hx as [<-|[<-|[]]]; [left|right]; eauto.
          simpl; auto.
        * destruct g as [[t s']|]; simpl in Hx; [|tauto]. destruct Hx as [<-|[<-|[]]]; [left|right]; eauto.
          rewrite Et. apply in_or_app. simpl; auto.
      + intros x Hx Hin.
        assert (Hxa : In x (cut_first f (n :: rest))).
        { unfold A, cut_last in Hx. destruct g; auto. now apply in_rl. }
        assert (Hxt : In x (n :: rest)).
        { unfold cut_first in Hxa. destruct f; simpl in *; auto. }
        specialize (Hge x Hxt).
        destruct Hin as [<-|Hin]; [lia|]. apply in_app_or in Hin as [Hin|Hin].
        * destruct f as [[t s']|]; simpl in Hin; [|tauto].
          destruct Hin as [<-|[<-|[]]]; [specialize (Hfo _ _ eq_refl); lia|].
          simpl in Hxa. inversion ND; auto.
        * destruct g as [[t s']|]; simpl in Hin; [|tauto].
          destruct Hin as [<-|[<-|[]]]; [specialize (Hgo _ _ eq_refl); lia|].
          unfold A, cut_last in Hx. unfold cut_first in Hx.
          destruct f as [[t2 s2]|].
          -- destruct tops' as [|b tops']; simpl in Et; injection Et as E1 E2;
               rewrite E2 in Hx; [simpl in Hx; tauto|].
             simpl in Hx. rewrite E2 in ND. inversion ND; subst. revert Hx. apply rl_last. auto.
          -- rewrite Et in Hx. rewrite Et in ND. revert Hx. apply rl_last. auto.
    - split; [|split; [|split; [auto|split; [auto|]]]].
      + destruct f as [[t s']|]; simpl; auto. destruct M1 as [M1 _]. eapply retexted_old; eauto.
      + destruct g as [[t s']|]; simpl; auto. destruct M2 as [M2 _]. eapply retexted_old; eauto.
      + eapply old_kept_from; eauto. intros q Hq [<-|Hin]; simpl; auto. right.
        apply in_app_or in Hin as [Hin|Hin]; apply in_or_app.
        * left. destruct f as [[t s']|]; simpl in *; [|tauto]. destruct Hin as [<-|[<-|[]]]; auto. lia.
        * right. destruct g as [[t s']|]; simpl in *; [|tauto]. destruct Hin as [<-|[<-|[]]]; auto. lia.
  Qed.
End Given.

Section Fragment.
  Context (d : dom) (HR : reachable d) (bl : bytes) (l : list item) (os : list opened).
  Context (Hw : well_formed Loose l) (Ho : forall o, In o os -> opened_ok o).
  Local Notation n := (length (nodes d)).
  Local Notation h := (doc_src l os).
  Local Notation ts := (doc_trees l os).

  (** C04, fragments *)
  Lemma frag_gives : gives d (length h) (parse_extra (Some bl) h d) (fun '(ok, d1) =>
    (doc_depth l os <= 256 -> ok = true /\ frag_shows d d1 ts) /\
    (256 < doc_depth l os -> ok = false)).
  Proof.
    destruct (reachable_good d HR) as (k & G). pose proof (frag_wf d bl l os HR Hw Ho k G) as S.
    split.
    - apply safe_ends. eapply safe_imp; [exact S|].
      intros [ok d1] [(-> & Hd & k1 & xs & W & Ek & F)|(-> & Hd)].
      + split; [|lia]. intros _. split; auto.
        pose proof (pw_good _ _ _ _ _ _ W) as G1. pose proof (g_inv _ _ G1) as I.
        pose proof (pw_pre _ _ _ _ _ _ W) as PR. rewrite Ek in PR.
        destruct ts as [|t0 ts0] eqn:Et; simpl.
        * assert (Hx : xs = []) by (inversion F; auto). rewrite Hx in PR. pose proof (pw_n _ _ _ _ _ _ W).
          destruct (length (nodes d1) - n) eqn:E; [lia|discriminate].
        * assert (Hne : xs <> []) by (intros ->; inversion F).
          assert (Hlt : n < length (nodes d1)).
          { destruct xs as [|x xs]; [congruence|]. inversion F; subst.
            inversion H2; subst; lia. }
          split; auto. exists xs. split; [|eapply kforest_shows; eauto].
          destruct xs as [|a xs]; [congruence|].
          assert (a = n).
          { simpl in PR. rewrite pre_eq in PR by apply G1.
            destruct (length (nodes d1) - n) eqn:?; [lia|]. simpl in PR. congruence. }
          subst a. apply (sibs_at d1 k1 (Flo n) [] (n :: xs)); auto.
      + split; [lia|]. auto.
    - intros Hr. pose proof (nj_parse (Some bl) h 0 [] d (room_good _ _ _ G Hr)) as J.
      fold (parse_extra (Some bl) h d) in J.
      destruct (parse_extra (Some bl) h d) as [r|u|j|]; simpl in S, J; try tauto; eauto.
      destruct u; contradiction.
  Qed.

  Context (Hroom : room_for d (length h)) (Hdepth : doc_depth l os <= 256).
  Context (Hne : ts <> []).

  Lemma frag_given : forall k, Good d k -> safe False (fun '(ok, d1) => ok = true /\
     exists k1 xs, ParseLoop.PW n d k (Flo n) d1 k1 /\ k1 (Flo n) = xs /\
        kforest n (length (nodes d1)) d1 k1 xs ts) (parse_extra (Some bl) h d).
  Proof.
    intros k G. eapply safe_imp; [apply frag_wf; eauto|].
    intros [ok d1] [(-> & _ & k1 & xs & W & Ek & F)|(-> & Hd)]; [|lia]. split; eauto 6.
  Qed.

  Lemma g_append_plain p ks : node_id d p -> children d p ks ->
    no_text_end d ks \/ (forall s r, ts <> Txt s :: r) ->
    exists d' tops, append_html (Some bl) p h d = Ok (n, d') /\
        children d' p (ks ++ tops) /\ Forall2 (shows d') tops ts /\ old_kept d d' p [].
  Proof. intros. eapply a_append_plain; eauto using frag_given. Qed.
  Lemma g_append_merge p ks : node_id d p -> children d p ks ->
    forall c old s ts', ends_with_text d ks c old -> ts = Txt s :: ts' ->
      exists d' tops, append_html (Some bl) p h d = Ok (hd c tops, d') /\
        children d' p (ks ++ tops) /\ Forall2 (shows d') tops ts' /\
        retexted d d' c (old ++ [cSP] ++ s) /\ old_kept d d' p [c].
  Proof. intros. eapply a_append_merge; eauto using frag_given. Qed.
  Lemma g_prepend_plain p ks : node_id d p -> children d p ks ->
    no_text_start d ks \/ (forall s r, ts <> r ++ [Txt s]) ->
      exists d' tops, prepend_html (Some bl) p h d = Ok (n, d') /\
        children d' p (tops ++ ks) /\ Forall2 (shows d') tops ts /\ old_kept d d' p [].
  Proof. intros. eapply a_prepend_plain; eauto using frag_given. Qed.
  Lemma g_prepend_merge p ks : node_id d p -> children d p ks ->
    forall c old s ts', starts_with_text d ks c old -> ts = ts' ++ [Txt s] ->
      exists d' tops, prepend_html (Some bl) p h d = Ok (hd c tops, d') /\
        children d' p (tops ++ ks) /\ Forall2 (shows d') tops ts' /\
        retexted d d' c (s ++ [cSP] ++ old) /\ old_kept d d' p [c].
  Proof. intros. eapply a_prepend_merge; eauto using frag_given. Qed.
  Lemma g_replace p c l1 l2 f g : children d p (l1 ++ c :: l2) ->
    first_goes d ts l1 f -> last_goes d ts l2 g -> (length ts = 1 -> f = None /\ g = None) ->
    cut_last g (cut_first f ts) <> [] ->
    exists d' tops, replace_with_html (Some bl) c h d = Ok (hd 0 tops, d') /\
      children d' p (l1 ++ tops ++ l2) /\
      Forall2 (shows d') tops (cut_last g (cut_first f ts)) /\
      got d d' f /\ got d d' g /\ kind d' c = Some TRemoved /\ ~ attached d' c /\
      old_kept d d' p (c :: got_ids f ++ got_ids g).
  Proof. intros. eapply a_replace; eauto using frag_given. Qed.
End Fragment.

(** ** C06: nesting of parsed documents *)
Lemma u_create_depth t d x m : create_dom t = Ok (Some d) -> at_depth d x m -> m <= 256.
Proof.
  unfold create_dom. intros E. pose proof (parse_root_ok t) as P.
  destruct (parse_root t empty_dom) as [[[] d']|u|j|]; simpl in E; try discriminate.
  injection E as ->. simpl in P. destruct P as (k & _ & H). destruct (H eq_refl) as (s & prev & S).
  pose proof (ps_bound _ _ _ _ _ _ _ _ _ S) as B.
  pose proof (g_inv _ _ (pw_good _ _ _ _ _ _ (ps_w _ _ _ _ _ _ _ _ _ S))) as I.
  intros D. assert (K : m = 0 \/ dep k (Par 1) x m).
  { induction D as [|p l c m Hl Hc D IH]; auto. right.
    apply (children_k d k p) in Hl; auto. subst l.
    destruct IH as [->|IH]; [|eapply dep_step; eauto].
    assert (p = 1).
    { inversion D; auto. } subst p. now constructor. }
  destruct K as [->|K]; [lia|]. apply B in K. unfold max_depth in K. simpl length in K. lia.
Qed.

Lemma create_flags l os : well_formed Root l -> (forall o, In o os -> opened_ok o) ->
  ends_in (create_dom (doc_src l os)) (fun r => forall d, r = Some d -> tags_as d (doc_opens l os)).
Proof.
  intros W Ho. pose proof (create_pairs l os W Ho) as C. destruct (create_dom (doc_src l os)); auto.
  destruct C as [C1 C2]. intros d ->. destruct (le_lt_dec (doc_depth l os) 255) as [Hd|Hd].
  - destruct (C1 Hd) as (d0 & E0 & _ & T & _). now injection E0 as <-.
  - specialize (C2 Hd). discriminate.
Qed.

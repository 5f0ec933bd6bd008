(** * The main loop on well-formed documents. *)
From Coq Require Import List NArith Arith Bool Lia.
From Verif Require Import Base TrieModel DomModel ParserModel DomSpec GrammarSpec
  Lemmas TrieProofs Tables Inv Surgery Attach Link RegProofs ParseSafe ParseTree ParseLoop
  Walk EditProofs EditOps GrammarScan GrammarText GrammarTag.
Import ListNotations.
Local Open Scope nat_scope.

(** ** Induction principles *)
Lemma tree_induct (P : tree -> Prop) :
  (forall s, P (Txt s)) ->
  (forall tag bs ps ts, Forall P ts -> P (Elem tag bs ps ts)) -> forall x, P x.
Proof.
  intros H1 H2. fix F 1. intros [tag bs ps ts|s]; [|apply H1]. apply H2.
  induction ts; constructor; auto.
Qed.
Lemma item_induct (P : item -> Prop) :
  (forall g, P (Gap g)) -> (forall n ats ws sl, P (Leaf n ats ws sl)) ->
  (forall n ats ws body e, Forall P body -> P (Pair n ats ws body e)) ->
  (forall w more after, P (Run w more after)) -> (forall w more after, P (Odd w more after)) ->
  (forall j, P (Stray j)) -> forall x, P x.
Proof.
  intros H1 H2 H3 H4 H5 H6. fix F 1. intros [g|n ats ws sl|n ats ws body e|w more after|w more after|j].
  - apply H1. - apply H2.
  - apply H3. induction body; constructor; auto.
  - apply H4. - apply H5. - apply H6.
Qed.

(** ** Trees in terms of child lists *)
Inductive kshows (lo hi : nat) (d : dom) (k : kids) : nat -> tree -> Prop :=
| ks_text x s : lo <= x < hi -> text_content d x s -> k (Par x) = [] ->
    kshows lo hi d k x (Txt s)
| ks_elem x tag bs ps ts : lo <= x < hi ->
    content d x = (Some TDocument, Some tag, None, bs, ps) ->
    Forall2 (kshows lo hi d k) (k (Par x)) ts -> kshows lo hi d k x (Elem tag bs ps ts).

Lemma Forall2_map_r {A B} (P Q : A -> B -> Prop) l m :
  Forall2 P l m -> Forall (fun y => forall x, P x y -> Q x y) m -> Forall2 Q l m.
Proof.
  induction 1; intros H1; constructor; inversion H1; subst; auto.
Qed.

Lemma kshows_keep lo hi lo' hi' d k d' k' tr : forall x,
  kshows lo hi d k x tr ->
  (forall y, lo <= y < hi -> same_content d d' y /\ k' (Par y) = k (Par y)) ->
  lo' <= lo -> hi <= hi' -> kshows lo' hi' d' k' x tr.
Proof.
  induction tr as [s|tag bs ps ts IH] using tree_induct; intros x H Hk L1 L2;
    inversion H; subst; destruct (Hk x) as [C K]; auto.
  - apply ks_text; [lia| |congruence]. unfold text_content, same_content in *. congruence.
  - apply ks_elem; [lia|unfold same_content in C; congruence|].
    rewrite K. eapply Forall2_map_r; [eassumption|].
    rewrite Forall_forall in *. intros y Hy z Hz. eauto.
Qed.

Lemma kshows_shows lo hi d k tr : Inv d k -> forall x, kshows lo hi d k x tr -> shows d x tr.
Proof.
  intros I. induction tr as [s|tag bs ps ts IH] using tree_induct; intros x H;
    inversion H; subst.
  - apply shows_text; auto. apply (children_k d k x); auto.
  - apply shows_elem with (l := k (Par x)); auto.
    + apply (children_k d k x); auto.
    + eapply Forall2_map_r; eauto.
Qed.

(** ** What parsing adds below container [q] *)
Record ext (q : key) (d : dom) (k : kids) (d' : dom) (k' : kids) (xs : list nat)
    (evs : list (bytes * bool)) : Prop := {
  e_tags : tag_pairs d' = notes (tag_pairs d) evs;
  e_len : length (nodes d) <= length (nodes d');
  e_content : forall x, x < length (nodes d) -> same_content d d' x;
  e_old : forall q', q' <> q -> old_key (length (nodes d)) q' -> k' q' = k q';
  e_new : k' q = k q ++ xs }.

Lemma old_key_mono n m q : old_key n q -> n <= m -> old_key m q.
Proof. destruct q; simpl; auto. lia. Qed.

Lemma ext_refl q d k : ext q d k d k [] [].
Proof. constructor; auto. - intros; reflexivity. - now rewrite app_nil_r. Qed.
Lemma ext_trans q d k d1 k1 d2 k2 xs ys e1 e2 :
  ext q d k d1 k1 xs e1 -> ext q d1 k1 d2 k2 ys e2 -> ext q d k d2 k2 (xs ++ ys) (e1 ++ e2).
Proof.
  intros [A0 A1 A2 A3 A4] [B0 B1 B2 B3 B4]. constructor.
  - rewrite B0, A0. unfold notes. now rewrite fold_left_app.
  - lia.
  - intros x Hx. eapply same_content_trans; [apply A2; auto|apply B2; lia].
  - intros q' Hq Ho. rewrite B3, A3; auto. eapply old_key_mono; eauto.
  - now rewrite B4, A4, app_assoc.
Qed.
(** Parsing below a new child [x] of [q]. *)
Lemma ext_down q d k d1 k1 d2 k2 x ys e1 e2 :
  ext q d k d1 k1 [x] e1 -> ext (Par x) d1 k1 d2 k2 ys e2 -> q <> Par x -> old_key (length (nodes d1)) q ->
  length (nodes d) <= x ->
  ext q d k d2 k2 [x] (e1 ++ e2).
Proof.
  intros [A0 A1 A2 A3 A4] [B0 B1 B2 B3 B4] Hq Ho Hx. constructor.
  - rewrite B0, A0. unfold notes. now rewrite fold_left_app.
  - lia.
  - intros y Hy. eapply same_content_trans; [apply A2; auto|apply B2; lia].
  - intros q' Hq' Ho'. rewrite B3, A3; auto.
    + intros E. subst q'. simpl in Ho'. lia.
    + eapply old_key_mono; eauto.
  - rewrite B3; auto.
Qed.

Definition kforest (lo hi : nat) (d : dom) (k : kids) := Forall2 (kshows lo hi d k).

Lemma kforest_ext q d k d1 k1 d2 k2 xs ys ts us e1 e2 :
  ext q d k d1 k1 xs e1 -> ext q d1 k1 d2 k2 ys e2 -> old_key (length (nodes d)) q ->
  kforest (length (nodes d)) (length (nodes d1)) d1 k1 xs ts ->
  kforest (length (nodes d1)) (length (nodes d2)) d2 k2 ys us ->
  kforest (length (nodes d)) (length (nodes d2)) d2 k2 (xs ++ ys) (ts ++ us).
Proof.
  intros A B Ho F G. apply Forall2_app.
  - eapply Forall2_map_r; [exact F|]. apply Forall_forall. intros tr _ x H.
    eapply kshows_keep; eauto; [|apply (e_len _ _ _ _ _ _ _ B)].
    intros y Hy. split; [apply (e_content _ _ _ _ _ _ _ B); lia|].
    apply (e_old _ _ _ _ _ _ _ B); [|simpl; lia].
    intros E. subst q. simpl in Ho. lia.
  - eapply Forall2_map_r; [exact G|]. apply Forall_forall. intros tr _ x H.
    eapply kshows_keep; eauto; [|apply (e_len _ _ _ _ _ _ _ A)].
    intros y Hy. split; reflexivity.
Qed.

(** ** Shape of sources *)
Lemma name_head n : name_ok n -> exists c r, n = c :: r /\ is_alpha c = true /\ c <> cSLASH /\ c <> cBANG.
Proof.
  intros (H & c & r & -> & Ha). exists c, r. split; auto. split; auto.
  split; intros ->; discriminate.
Qed.

Lemma open_src_eq n ats ws sl r :
  open_src n ats ws sl ++ r = cLT :: n ++ attrs_src ats ++ tag_tail ws sl r.
Proof.
  unfold open_src, tag_tail. simpl. rewrite <- !app_assoc. destruct sl; reflexivity.
Qed.
Lemma close_src_eq n e r : close_src n e ++ r = cLT :: cSLASH :: n ++ e ++ cGT :: r.
Proof. unfold close_src. simpl. rewrite <- !app_assoc. reflexivity. Qed.

Lemma rest_not_dash ats ws sl r : tag_rest_ok ats ws sl ->
  exists c x, attrs_src ats ++ tag_tail ws sl r = c :: x /\ c <> cDASH.
Proof.
  intros H. destruct (rest_head ats ws sl r H) as (c & x & E & D). exists c, x. split; auto.
  destruct D as [D|[->|(-> & _)]]; try discriminate. intros ->. discriminate.
Qed.

Definition leaf_name (n : bytes) (sl : bool) : Prop :=
  decl_ok n \/ (name_ok n /\ (is_void n = true \/ sl = true)).

(** A tag does not look like a comment. *)
Lemma open_no_comment n ats ws sl r s : decl_ok n \/ name_ok n -> tag_rest_ok ats ws sl ->
  n ++ attrs_src ats ++ tag_tail ws sl r <> [cBANG; cDASH; cDASH] ++ s.
Proof.
  intros [(_ & (m & ->) & Hd)|H] Hr E.
  - destruct (rest_not_dash ats ws sl r Hr) as (c & x & Ec & Hc). rewrite Ec in E.
    simpl in E. injection E as E. destruct m as [|c1 m]; simpl in E; [congruence|].
    injection E as -> E. destruct m as [|c2 m]; simpl in E; [congruence|].
    injection E as -> E. apply (Hd m). reflexivity.
  - destruct (name_head n H) as (c & m & -> & _ & _ & Hb). simpl in E. congruence.
Qed.

Lemma stops_open n ats ws sl r : decl_ok n \/ name_ok n -> tag_rest_ok ats ws sl ->
  stops (open_src n ats ws sl ++ r).
Proof.
  intros H Hr. right. rewrite open_src_eq. eexists. split; [reflexivity|].
  intros s. apply open_no_comment; auto.
Qed.
Lemma stops_close n e r : stops (close_src n e ++ r).
Proof.
  right. rewrite close_src_eq. eexists. split; [reflexivity|]. intros s. simpl. discriminate.
Qed.
Lemma stops_nil : stops [].
Proof. left. reflexivity. Qed.

(** What may follow item [x] in front of the rest [r]. *)
Definition follows (x : item) (r : bytes) : Prop :=
  match x with Run _ _ _ | Odd _ _ _ => stops r | _ => True end.

Lemma odd_start pl w : odd_ok pl w -> exists c r, w = c :: r /\ is_alpha c = false /\ c <> cBANG.
Proof. intros (c & r & H1 & H2 & H3 & _). eauto. Qed.

Lemma stops_odd pl w x : odd_ok pl w -> stops (cLT :: w ++ x).
Proof.
  intros H. destruct (odd_start _ _ H) as (c & r & -> & _ & Hb). right. eexists. split; [reflexivity|].
  intros s E. simpl in E. congruence.
Qed.

Lemma follows_list pl x l r : well_formed pl (x :: l) -> stops r ->
  follows x (source l ++ r).
Proof.
  intros [Hok Hm] Hr.
  assert (G : match l with (Gap _ | Run _ _ _) :: _ => False | _ => True end -> stops (source l ++ r)).
  { intros Hl. destruct l as [|y l]; [exact Hr|]. unfold source. cbn [flat_map]. rewrite <- app_assoc.
    assert (Hy : item_ok pl y) by (apply Hok; simpl; auto).
    destruct y; try contradiction; cbn [item_src].
    - inversion Hy as [|pl' n' a' w' s' Hn Hr'| | | |]; subst. apply stops_open; auto.
      destruct Hn as [Hn|[Hn _]]; auto.
    - inversion Hy; subst. rewrite <- app_assoc. apply stops_open; auto.
    - inversion Hy; subst. unfold run_src_of. simpl. rewrite <- !app_assoc. eapply stops_odd; eauto.
    - apply stops_close. }
  destruct x; simpl; auto; simpl in Hm; destruct Hm as [Hm _]; apply G; destruct l as [|[]]; auto.
Qed.

Lemma linked_len b bot k s : linked b bot k s -> length bot <= length s.
Proof. induction 1; simpl; auto. Qed.

Section Loop.
  Context (n0 : nat) (d0 : dom) (k0 : kids) (b : key) (bot : list frame).
  Context (M : pmode n0 b bot).
  Context (t : bytes) (below : option bytes).
  Context (Hbelow : bot <> [] \/ below <> None).
  Local Notation pl := (fun f i prev s d => parse_loop f below t (length bot) i prev s d).
  Local Notation PSt := (PS n0 d0 k0 b bot).

  (** From the given state the loop gets to a state satisfying [Q], or jumps, or
      gives up (and then [bad] holds). *)
  Definition goes (i prev : nat) (s : list frame) (d : dom)
      (Q : nat -> nat -> list frame -> dom -> Prop) (bad : Prop) : Prop :=
    (exists m i' prev' s' d', i + m <= i' /\
        (forall f, pl (m + f) i prev s d = pl f i' prev' s' d') /\ Q i' prev' s' d') \/
    (exists m j, i + m <= length t /\ forall f, pl (m + f) i prev s d = Longjmp j) \/
    (bad /\ exists m d', i + m <= length t /\ forall f, pl (m + f) i prev s d = Ok (false, d')).

  Lemma goes_now i prev s d (Q : nat -> nat -> list frame -> dom -> Prop) bad :
    Q i prev s d -> goes i prev s d Q bad.
  Proof. intros H. left. exists 0, i, prev, s, d. split; [lia|]. auto. Qed.

  Lemma goes_trans i prev s d Q Q2 (bad bad1 bad2 : Prop) :
    goes i prev s d Q bad1 ->
    (forall i' prev' s' d', Q i' prev' s' d' -> goes i' prev' s' d' Q2 bad2) ->
    (bad1 -> bad) -> (bad2 -> bad) -> goes i prev s d Q2 bad.
  Proof.
    intros [(m & i' & p' & s' & d' & L & E & H)|[(m & j & L & E)|(B & m & d' & L & E)]] K B1 B2.
    - destruct (K _ _ _ _ H) as [(m2 & i2 & p2 & s2 & d2 & L2 & E2 & H2)|[(m2 & j & L2 & E2)|(B & m2 & d2 & L2 & E2)]].
      + left. exists (m + m2), i2, p2, s2, d2. split; [lia|]. split; auto.
        intros f. cbv beta in *. rewrite <- Nat.add_assoc, E, E2. reflexivity.
      + right; left. exists (m + m2), j. split; [lia|]. intros f. cbv beta in *.
        rewrite <- Nat.add_assoc, E, E2. reflexivity.
      + right; right. split; auto. exists (m + m2), d2. split; [lia|]. intros f. cbv beta in *.
        rewrite <- Nat.add_assoc, E, E2. reflexivity.
    - right; left. eauto.
    - right; right. split; eauto.
  Qed.

  Lemma goes_imp i prev s d (Q Q2 : nat -> nat -> list frame -> dom -> Prop) (bad bad2 : Prop) :
    goes i prev s d Q bad -> (forall i' p' s' d', Q i' p' s' d' -> Q2 i' p' s' d') ->
    (bad -> bad2) -> goes i prev s d Q2 bad2.
  Proof.
    intros H H1 H2. eapply (goes_trans _ _ _ _ Q Q2 bad2 bad False); eauto; [|tauto].
    intros. apply goes_now. auto.
  Qed.

  Lemma goes_step i prev s d (Q : nat -> nat -> list frame -> dom -> Prop) bad c r0 :
    suf t i (c :: r0) ->
    safe False (fun '(r, d') => match r with
        | None => bad
        | Some (j, prev', s') => exists rr, suf t j rr /\ i < j /\
            forall j', suf t j' (dropb rr) -> Q j' prev' s' d'
        end) (parse_step below t (length bot) i prev s d) ->
    goes i prev s d Q bad.
  Proof.
    intros H S. destruct (suf_get _ _ _ _ H) as (_ & _ & Hi & Hlt & _).
    apply safe_get in S. destruct S as [([r d'] & E & S)|[(j & E)|(_ & [])]].
    - destruct r as [[[j prev'] s']|].
      + destruct S as (rr & S1 & S2 & S3).
        destruct (suf_skip _ _ _ S1) as (j' & Ej & Sj & Lj).
        left. exists 1, j', prev', s', d'. split; [lia|]. split; [|auto].
        intros f. cbv beta. cbn [Nat.add parse_loop]. rewrite Hlt, E. cbn [bind]. now rewrite Ej.
      + right; right. split; auto. exists 1, d'. split; [lia|].
        intros f. cbv beta. cbn [Nat.add parse_loop]. rewrite Hlt, E. reflexivity.
    - right; left. exists 1, j. split; [lia|].
      intros f. cbv beta. cbn [Nat.add parse_loop]. rewrite Hlt, E. reflexivity.
  Qed.

  (** ** Facts about states *)
  Lemma ps_inv s prev d k : PSt s prev d k -> Inv d k.
  Proof. intros H. apply H. Qed.
  Lemma ps_reg s prev d k : PSt s prev d k -> RegInv d.
  Proof. intros H. apply H. Qed.
  Lemma ps_cur_old s prev d k : PSt s prev d k -> old_key (length (nodes d)) (curk b s).
  Proof.
    intros H. destruct s as [|[p tag] s]; simpl.
    - pose proof (inv_len _ _ (ps_inv _ _ _ _ H)) as HL.
      destruct M as [(E & _)|(E & _)]; rewrite E; simpl; auto.
    - apply (linked_frame (length (nodes d)) k n0 b bot ((p, tag) :: s) p tag).
      + apply (inv_kw _ _ (ps_inv _ _ _ _ H)).
      + apply (inv_len _ _ (ps_inv _ _ _ _ H)).
      + exact M.
      + apply (ps_linked _ _ _ _ _ _ _ _ _ H).
      + left; reflexivity.
  Qed.
  Lemma ps_top s prev d k : PSt s prev d k ->
    exists tt, top_tag below s = Ok tt /\ (forall p tag s', s = (p, tag) :: s' -> tt = tag).
  Proof.
    intros H. unfold top_tag. destruct s as [|[p tag] s'].
    - pose proof (linked_nonempty b bot k [] (ps_linked _ _ _ _ _ _ _ _ _ H) eq_refl) as E.
      destruct below as [bl|]; [|destruct Hbelow; congruence].
      exists bl. split; auto. discriminate.
    - exists tag. split; auto. intros ? ? ? E. injection E. auto.
  Qed.

  (** The state after one node has been added. *)
  Lemma ps_new s prev d k d1 x evs : tag_pairs d1 = notes (tag_pairs d) evs ->
    PSt s prev d k -> added d d1 x -> (forall u, text_of d1 x = Some u -> normP u) ->
    exists k', PSt s x (update_refs x prev s d1) k' /\
      ext (curk b s) d k (update_refs x prev s d1) k' [x] evs /\
      content (update_refs x prev s d1) x = content d1 x /\
      k' (Par x) = [] /\ last_error (k' (curk b s)) = Some x /\ curk b s <> Par x /\
      x = length (nodes d) /\ length (nodes (update_refs x prev s d1)) = S x /\ n0 <= x.
  Proof.
    intros HT HS A Ht. destruct (added_len _ _ _ A) as [L1 L2].
    destruct (ps_add_at n0 d0 k0 b bot M s prev d k d1 x HS A Ht)
      as (k' & (Ek & Hq & D) & S' & Hl & Hk & _ & Hn).
    assert (L3 : length (nodes (update_refs x prev s d1)) = S x).
    { rewrite (same_data_nodes _ _ D). exact L1. }
    exists k'. split; auto. split.
    - constructor.
      + rewrite <- HT. unfold tag_pairs. rewrite D. reflexivity.
      + lia.
      + intros y Hy. eapply same_content_trans; [|apply same_data_content; eauto].
        apply added_content with (x := x); auto; [eapply ps_reg; eauto|lia].
      + intros q' Hq' _. rewrite Ek. apply upk_neq. auto.
      + rewrite Ek. apply upk_eq.
    - split; [apply same_data_content; auto|]. auto 8.
  Qed.

  (** ** The steps *)
  Definition after_item (s : list frame) (d : dom) (k : kids) (ts : list tree) (evs : list (bytes * bool)) (r : bytes) (dp : nat)
    : nat -> nat -> list frame -> dom -> Prop :=
    fun i' prev' s' d' => s' = s /\ suf t i' (dropb r) /\ length s + dp <= max_depth /\
      exists k' xs, PSt s prev' d' k' /\ ext (curk b s) d k d' k' xs evs /\
        kforest (length (nodes d)) (length (nodes d')) d' k' xs ts.

  Lemma after_none s prev d k r i : PSt s prev d k -> suf t i (dropb r) ->
    after_item s d k [] [] r 0 i prev s d.
  Proof.
    intros H S. split; auto. split; auto.
    split; [rewrite Nat.add_0_r; apply (ps_depth _ _ _ _ _ _ _ _ _ H)|].
    exists k, []. split; auto. split; [apply ext_refl|constructor].
  Qed.

  Lemma step_comment s prev d k body r i : PSt s prev d k -> com_ok body ->
    suf t i (com_src body ++ r) ->
    goes i prev s d (after_item s d k [] [] r 0) False.
  Proof.
    intros HS Hc H. eapply goes_step; [exact H|]. unfold parse_step.
    destruct (suf_get t i cLT _ H) as (-> & _). cbn [bind]. rewrite N.eqb_refl.
    rewrite (is_comment_yes _ _ _ _ H). cbn [bind].
    destruct (skip_comment_exact _ _ _ _ Hc H) as [-> S2]. cbn [bind safe].
    exists r. split; auto. split; [unfold com_src; simpl; lia|].
    intros j' Sj. apply after_none with (prev := prev); auto.
  Qed.

  Lemma text_added_tags d d' id u : text_added d d' id u -> tag_pairs d' = notes (tag_pairs d) [].
  Proof. intros [_ ->]. reflexivity. Qed.

  Lemma parse_text_exact w more after r i tag d : run_ok w more after -> stops r ->
    suf t i (run_src_of w more after ++ r) ->
    safe False (fun '(id, j, d') => text_added d d' id (text_val w more) /\ suf t j r /\ i < j)
      (parse_text_node t i tag d).
  Proof.
    intros Hok Hr H. unfold parse_text_node.
    eapply safe_bind; [apply create_node_ok|].
    intros [id d1] [E _]. injection E as -> ->.
    destruct (run_pieces_ok _ _ _ Hok) as (Hp & ps & Eps & Hg).
    assert (Hd : suf t i (dropb (psrc (run_pieces w more after) ++ r))).
    { rewrite run_src. rewrite dropb_id; auto.
      destruct Hok as ([Hw1 Hw2] & _ & _). destruct w as [|c w]; [congruence|].
      simpl. apply text_char_spec. apply Hw2. simpl; auto. }
    destruct (text_loop_exact t (beq tag s_script || beq tag s_style) tag _ _ r None i (S (length t))
       (le_n _) Hp Hr Hd) as (j & E & Sj & Lj); [lia|].
    rewrite E. cbn [bind]. rewrite run_words. cbn [text_result]. rewrite conc_more.
    unfold set_pay, get_node. cbn [push_node set_nodes nodes].
    rewrite nth_error_app2, Nat.sub_diag by auto. cbn [nth_error bind safe n_id n_type].
    split; [|split; auto].
    - split; auto. unfold push_node, set_nodes. simpl. now rewrite upd_last.
    - apply suf_len in Sj. apply suf_len in H. rewrite app_length in H.
      assert (0 < length (run_src_of w more after)).
      { destruct Hok as ([Hw1 Hw2] & _ & _). destruct w; [congruence|]. simpl. lia. }
      lia.
  Qed.

  (** A text node starting at position [j0]. *)
  Lemma text_step_exact s prev d k w more after r i j0 : PSt s prev d k ->
    run_ok w more after -> stops r -> i <= j0 -> j0 <= length t ->
    suf t j0 (run_src_of w more after ++ r) ->
    safe False (fun '(r0, d') => match r0 with
        | None => False
        | Some (j, prev', s') => exists rr, suf t j rr /\ i < j /\
            forall j', suf t j' (dropb rr) ->
              after_item s d k [Txt (text_val w more)] [] r 0 j' prev' s' d'
        end)
      (let* '(id, j, d) := parse_text_node t j0 (containing_tag s) d in
       Ok (Some (j, id, s), update_refs id prev s d)).
  Proof.
    intros HS Hok Hr Hi Hj H.
    assert (Hfirst : forall y, nth_error t j0 = Some y -> is_blank y = false).
    { intros y Hy. destruct Hok as ([Hw1 Hw2] & _ & _). destruct w as [|c w]; [congruence|].
      simpl in H. destruct (suf_get _ _ _ _ H) as (_ & _ & _ & _ & Hn).
      assert (y = c) by congruence. subst y. apply text_char_spec, Hw2. simpl; auto. }
    assert (Hn : safe False (fun '(id, j, d') => exists u, normP u /\ text_added d d' id u)
              (parse_text_node t j0 (containing_tag s) d)).
    { pose proof (parse_text_node_ok False t j0 (containing_tag s) d) as P.
      eapply safe_imp; [apply P; [left; exact Hfirst|lia]|].
      intros [[id j] d'] (_ & _ & Hx). exact Hx. }
    eapply safe_bind; [apply safe_and; [exact (parse_text_exact _ _ _ r j0 (containing_tag s) d Hok Hr H)|exact Hn]|].
    intros [[id j] d1] ((A & Sj & Lj) & u & Hu & A').
    assert (Eu : u = text_val w more).
    { destruct (text_added_text _ _ _ _ A) as [E1 _]. destruct (text_added_text _ _ _ _ A') as [E2 _].
      congruence. }
    subst u. pose proof (ps_reg _ _ _ _ HS) as R.
    destruct (ps_new s prev d k d1 id [] (text_added_tags _ _ _ _ A) HS (text_added_added _ _ _ _ R A)) as
      (k' & S' & X & C & K & _ & Hq & Hx & Hl & _).
    { intros v Hv. destruct (text_added_text _ _ _ _ A) as [E1 _]. rewrite E1 in Hv.
      injection Hv as <-. exact Hu. }
    cbn [safe]. exists r. split; auto. split; [lia|]. intros j' Sj'.
    split; auto. split; auto. split; [rewrite Nat.add_0_r; apply (ps_depth _ _ _ _ _ _ _ _ _ HS)|].
    exists k', [id]. split; auto. split; auto. constructor; [|constructor].
    apply ks_text; [lia| |auto].
    unfold text_content. rewrite C. apply (text_added_content d); auto.
  Qed.

  (** Where the item stands agrees with the stack. *)
  Definition top_ok (pl : place) (s : list frame) : Prop :=
    match pl with
    | Root => s = [(1, [])] /\ bot = [(1, [])]
    | Loose => True
    | Inside n => exists p s', s = (p, n) :: s'
    end.

  Lemma step_run s prev d k w more after r i : PSt s prev d k ->
    run_ok w more after -> stops r ->
    suf t i (run_src_of w more after ++ r) ->
    goes i prev s d (after_item s d k [Txt (text_val w more)] [] r 0) False.
  Proof.
    intros HS Hok Hr H.
    assert (Hc : exists c x, run_src_of w more after ++ r = c :: x /\ is_blank c = false /\ c <> cLT).
    { destruct Hok as ([Hw1 Hw2] & _ & _). destruct w as [|c w]; [congruence|].
      simpl. do 2 eexists. split; [reflexivity|]. apply text_char_spec. apply Hw2. simpl; auto. }
    destruct Hc as (c & x & Ec & Hc1 & Hc2).
    assert (H0 : suf t i (c :: x)) by (rewrite <- Ec; exact H).
    eapply goes_step; [exact H0|]. unfold parse_step.
    destruct (suf_get t i c x H0) as (-> & _ & Hlt & _ & Hnth). cbn [bind].
    destruct (N.eqb_spec c cLT); [congruence|].
    apply text_step_exact with (after := after); auto. lia.
  Qed.

  Lemma step_odd pl s prev d k w more after r i : PSt s prev d k -> top_ok pl s ->
    run_ok w more after -> odd_ok pl w -> stops r ->
    suf t i (cLT :: run_src_of w more after ++ r) ->
    goes i prev s d (after_item s d k [Txt (text_val w more)] [] r 0) False.
  Proof.
    intros HS Ht Hok (c & w' & Ew & Ha & Hb & Hsl) Hr H.
    eapply goes_step; [exact H|]. unfold parse_step.
    destruct (suf_get t i cLT _ H) as (-> & _). cbn [bind]. rewrite N.eqb_refl.
    assert (Er : run_src_of w more after ++ r = w ++ (flat_map (fun gw => gaps_src (fst gw) ++ snd gw) more ++ gaps_src after) ++ r).
    { unfold run_src_of. now rewrite <- !app_assoc. }
    set (x := (flat_map (fun gw => gaps_src (fst gw) ++ snd gw) more ++ gaps_src after) ++ r) in *.
    rewrite Er in H.
    rewrite (is_comment_no t i _ H) by (intros ss E; rewrite Ew in E; simpl in E; congruence). cbn [bind].
    destruct (ps_top _ _ _ _ HS) as (tt & -> & Htop). cbn [bind].
    assert (H1 : suf t (S i) (c :: w' ++ x)).
    { apply suf_cons in H. rewrite Ew in H. exact H. }
    destruct (suf_get _ _ _ _ H1) as (_ & Hcc & Hlt & _).
    assert (He : is_end_tag t i tt = Ok false).
    { destruct (N.eq_dec c cSLASH) as [Ec|Ec].
      - destruct (Hsl Ec) as (nm & Epl & D1 & D2). subst pl. destruct Ht as (p & s' & Es).
        rewrite (Htop _ _ _ Es). eapply is_end_tag_diff; eauto.
      - eapply is_end_tag_no; [|exact Ec]. rewrite Ew in H. exact H. }
    rewrite He. cbn [bind]. rewrite Hcc, Ha. destruct (N.eqb_spec c cBANG); [congruence|]. cbn [orb].
    apply text_step_exact with (after := after); auto; [lia|]. rewrite Er, Ew. exact H1.
  Qed.

  Lemma step_stray s prev d k j r i : PSt s prev d k -> s = [(1, [])] -> bot = [(1, [])] ->
    ~ In cGT j -> suf t i (close_src j [] ++ r) ->
    goes i prev s d (after_item s d k [] [] r 0) False.
  Proof.
    intros HS Es Eb Hj H. rewrite close_src_eq in H. simpl in H.
    eapply goes_step; [exact H|]. unfold parse_step.
    destruct (suf_get t i cLT _ H) as (-> & _). cbn [bind]. rewrite N.eqb_refl.
    rewrite (is_comment_no t i _ H) by (intros; discriminate). cbn [bind].
    destruct (ps_top _ _ _ _ HS) as (tt & -> & Ht). cbn [bind].
    rewrite (Ht 1 [] [] Es). rewrite (is_end_tag_yes t [] j i r H). cbn [bind].
    rewrite Es, Eb. cbn [length]. change (1 <? 1) with false. cbv iota beta.
    destruct (end_scan t i j r H Hj) as (e & -> & Le & Se). cbn [bind safe].
    exists r. split; auto. split; [lia|]. intros j' Sj. rewrite <- Es.
    apply after_none with (prev := prev); auto.
  Qed.

  (** An opening tag. *)
  Definition after_open (can : bool) (s : list frame) (d : dom) (k : kids) (n : bytes)
      (bs : list bytes) (ps : list (bytes * bytes)) (r : bytes)
    : nat -> nat -> list frame -> dom -> Prop :=
    fun i' x s' d' => suf t i' (dropb r) /\ x = length (nodes d) /\ length (nodes d') = S x /\
      n0 <= x /\ curk b s <> Par x /\
      content d' x = (Some TDocument, Some n, None, bs, ps) /\
      s' = (if can then (x, n) :: s else s) /\ (if can then length s < max_depth else True) /\
      exists k', PSt s' x d' k' /\ ext (curk b s) d k d' k' [x] [(n, can)] /\ k' (Par x) = [].

  Lemma step_open s prev d k n ats ws sl r i : PSt s prev d k ->
    decl_ok n \/ name_ok n -> tag_rest_ok ats ws sl ->
    suf t i (open_src n ats ws sl ++ r) ->
    forall can, can = (match n with c :: _ => negb (c =? cBANG)%N | [] => true end)
                      && negb (is_void n) && negb sl ->
    goes i prev s d (after_open can s d k n (bools_of ats) (props_of ats) r)
         (can = true /\ max_depth <= length s).
  Proof.
    intros HS Hn Hr H can Hcan. rewrite open_src_eq in H.
    assert (Hc : exists c x, n = c :: x /\ (is_alpha c = true \/ c = cBANG) /\ c <> cSLASH /\ all name_char n).
    { destruct Hn as [(Ha & (m & ->) & _)|Hn].
      - exists cBANG, m. repeat split; auto. discriminate.
      - destruct (name_head n Hn) as (c & m & E & A & B & _). exists c, m.
        repeat split; auto. apply Hn. }
    destruct Hc as (c & x & En & Ha & Hs & Hall).
    eapply goes_step; [exact H|]. unfold parse_step.
    destruct (suf_get t i cLT _ H) as (-> & _). cbn [bind]. rewrite N.eqb_refl.
    rewrite (is_comment_no t i _ H) by (intros; apply open_no_comment; auto). cbn [bind].
    destruct (ps_top _ _ _ _ HS) as (tt & -> & Ht). cbn [bind].
    assert (H1 : suf t i (cLT :: c :: x ++ attrs_src ats ++ tag_tail ws sl r)).
    { rewrite En in H. exact H. }
    rewrite (is_end_tag_no t tt i c _ H1 Hs). cbn [bind]. clear Ht.
    assert (H2 := suf_cons _ _ _ _ H1).
    destruct (suf_get _ _ _ _ H2) as (_ & -> & _).
    assert (Hst : is_alpha c || (c =? cBANG)%N = true).
    { destruct Ha as [-> | ->]; auto. }
    rewrite Hst.
    pose proof (ps_reg _ _ _ _ HS) as R.
    eapply safe_bind.
    { apply (parse_document_node_exact t n ats ws sl r (S i) d (c =? cBANG)%N); auto.
      - rewrite En. discriminate.
      - eapply suf_cons; eauto. }
    intros [[[[id can1] tag] j] d1] (Ec & -> & Sj & Lj & A & TP).
    assert (Hcc : can1 = can) by (rewrite Ec, Hcan, En; reflexivity). clear Ec. subst can1.
    destruct (elem_added_tag _ _ _ _ _ _ A) as (Htag & Htxt & _).
    destruct (ps_new s prev d k d1 id [(n, can)] TP HS (elem_added_added _ _ _ _ _ _ A)) as
      (k' & S' & X & C & K & Hla & Hq & Hx & Hl & Hn0).
    { intros v Hv. congruence. }
    assert (Cx : content (update_refs id prev s d1) id =
                 (Some TDocument, Some n, None, bools_of ats, props_of ats)).
    { rewrite C. eapply elem_added_content; eauto. }
    destruct can.
    - destruct (Nat.leb_spec max_depth (length s)) as [Hd|Hd].
      { cbn [safe]. auto. }
      cbn [safe]. exists r. split; auto. split; [lia|]. intros j' Sj'.
      split; auto. split; auto. split; auto. split; auto. split; auto. split; auto.
      split; auto. split; auto. exists k'. split; [|auto].
      apply ps_push; auto.
      + unfold content in Cx. injection Cx. auto.
      + symmetry in Hcan. apply andb_true_iff in Hcan as [Hcan _].
        apply andb_true_iff in Hcan as [Hb Hv].
        intros [V|V]; [rewrite V in Hv; discriminate|].
        rewrite En in V, Hb. simpl in V. injection V as ->. rewrite N.eqb_refl in Hb. discriminate.
    - cbn [safe]. exists r. split; auto. split; [lia|]. intros j' Sj'.
      split; auto. split; auto. split; auto. split; auto. split; auto. split; auto.
      split; auto. split; auto. exists k'. auto.
  Qed.

  (** An end tag. *)
  Lemma step_close (s : list frame) x n prev d k e r i : PSt ((x, n) :: s) prev d k ->
    linked b bot k s -> ~ In cGT (n ++ e) ->
    suf t i (close_src n e ++ r) ->
    goes i prev ((x, n) :: s) d (fun i' prev' s' d' => prev' = x /\ s' = s /\ d' = d /\
       suf t i' (dropb r) /\ PSt s x d k) False.
  Proof.
    intros HS Hlk He H. rewrite close_src_eq in H.
    eapply goes_step; [exact H|]. unfold parse_step.
    destruct (suf_get t i cLT _ H) as (-> & _). cbn [bind]. rewrite N.eqb_refl.
    rewrite (is_comment_no t i _ H) by (intros; discriminate). cbn [bind top_tag].
    rewrite (is_end_tag_yes t n e i r H). cbn [bind].
    apply linked_len in Hlk.
    assert (Hl : length bot < length ((x, n) :: s)) by (change (length bot < S (length s)); lia).
    assert (H' : suf t i (cLT :: cSLASH :: (n ++ e) ++ cGT :: r)) by (rewrite <- app_assoc; exact H).
    destruct (end_scan t i (n ++ e) r H' He) as (j & -> & Lj & Sj). cbn [bind].
    pose proof (proj2 (Nat.ltb_lt _ _) Hl) as Hl'. setoid_rewrite Hl'. cbn [safe].
    exists r. split; auto. split; [lia|]. intros j' Sj'.
    split; auto. split; auto. split; auto. split; auto.
    eapply ps_pop; eauto.
  Qed.

  Lemma linked_pop k (s : list frame) x n : linked b bot k ((x, n) :: s) -> length bot <= length s -> linked b bot k s.
  Proof.
    intros L Hl. remember ((x, n) :: s) as s1 eqn:E1.
    destruct L as [|p tag s2 L1 L2]; [|injection E1 as _ _ ->; auto].
    exfalso. rewrite E1 in Hl. apply Nat.nle_succ_diag_l in Hl. exact Hl.
  Qed.

  (** ** Items *)
  Definition item_stmt (x : item) : Prop := forall pl s prev d k r i,
    PSt s prev d k -> top_ok pl s -> item_ok pl x -> follows x r ->
    suf t i (dropb (item_src x ++ r)) ->
    goes i prev s d (after_item s d k (item_trees x) (item_opens x) r (item_depth x))
         (max_depth < length s + item_depth x).

  Definition list_stmt (l : list item) : Prop := forall pl s prev d k r i,
    PSt s prev d k -> top_ok pl s -> well_formed pl l -> stops r ->
    suf t i (dropb (source l ++ r)) ->
    goes i prev s d (after_item s d k (forest l) (opens l) r (depth l))
         (max_depth < length s + depth l).

  Lemma depth_cons x l : depth (x :: l) = Nat.max (item_depth x) (depth l).
  Proof. reflexivity. Qed.
  Lemma depth_pair n ats ws body e : item_depth (Pair n ats ws body e) = S (depth body).
  Proof. reflexivity. Qed.
  Lemma list_from_items l : Forall item_stmt l -> list_stmt l.
  Proof.
    induction l as [|x l IH]; intros HF pl s prev d k r i HS Ht Hw Hr H.
    - eapply goes_now. simpl in H. apply after_none with (prev := prev); auto.
    - inversion HF as [|? ? Hx Hl]; subst. specialize (IH Hl).
      assert (Hw' : well_formed pl l).
      { destruct Hw as [W1 W2]. split; [intros y Hy; apply W1; simpl; auto|]. simpl in W2. tauto. }
      assert (H' : suf t i (dropb (item_src x ++ source l ++ r))).
      { unfold source in *. simpl in H. now rewrite <- app_assoc in H. }
      assert (Hok : item_ok pl x) by (apply Hw; simpl; auto).
      eapply (goes_trans _ _ _ _ _ _ _ _ _
        (Hx pl s prev d k (source l ++ r) i HS Ht Hok (follows_list _ _ _ _ Hw Hr) H')).
      + intros i' prev' s' d' (-> & Si & Ld & k' & xs & HS' & X & F).
        eapply (goes_imp _ _ _ _ _ _ _ _ (IH pl s prev' d' k' r i' HS' Ht Hw' Hr Si)).
        2:{ intros B. exact B. }
        intros i2 p2 s2 d2 (-> & Si2 & Ld2 & k2 & ys & HS2 & X2 & F2).
        split; auto. split; auto. split; [rewrite depth_cons; lia|].
        exists k2, (xs ++ ys). split; auto. split; [eapply ext_trans; eauto|].
        unfold forest. simpl. eapply kforest_ext; eauto. eapply ps_cur_old; eauto.
      + intros B. rewrite depth_cons. lia.
      + intros B. rewrite depth_cons. lia.
  Qed.

  Lemma name_no_gt n e : name_ok n -> ~ In cGT e -> ~ In cGT (n ++ e).
  Proof.
    intros [Hn _] He Hin. apply in_app_or in Hin as [Hin|Hin]; auto.
    apply Hn in Hin. discriminate.
  Qed.

  Lemma dropb_lt x : dropb (cLT :: x) = cLT :: x.
  Proof. reflexivity. Qed.

  Lemma items_ok x : item_stmt x.
  Proof.
    induction x as [g|n ats ws sl|n ats ws body e IH|w more after|w more after|j] using item_induct;
      intros pl s prev d k r i HS Ht Hok Hf H.
    - (* gap *)
      inversion Hok as [? ? Hg| | | | |]; subst. destruct g as [w|body]; simpl in H, Hg |- *.
      + eapply goes_now. rewrite dropb_app in H by apply Hg.
        apply after_none with (prev := prev); auto.
      + assert (H' : suf t i (com_src body ++ r)).
        { unfold com_src in *. simpl in H |- *. exact H. }
        eapply goes_imp; [eapply step_comment; eauto|auto|tauto].
    - (* leaf *)
      inversion Hok as [|? ? ? ? ? Hn Hr| | | |]; subst.
      assert (H' : suf t i (open_src n ats ws sl ++ r)).
      { rewrite open_src_eq. rewrite <- (dropb_lt (n ++ _)), <- open_src_eq. exact H. }
      clear H. eapply goes_imp.
      + refine (step_open s prev d k n ats ws sl r i HS _ Hr H' _ eq_refl).
        destruct Hn as [Hn|[Hn _]]; auto.
      + assert (Ef : (match n with c :: _ => negb (c =? cBANG)%N | [] => true end)
                      && negb (is_void n) && negb sl = false).
        { destruct Hn as [(_ & (m & ->) & _)|[_ [-> | ->]]]; auto.
          - now rewrite andb_false_r.
          - now rewrite andb_false_r. }
        rewrite Ef. intros i' x s' d' (Si & Ex & Lx & _ & _ & C & -> & _ & k' & S' & X & K).
        split; auto. split; auto.
        split; [simpl; rewrite Nat.add_0_r; apply (ps_depth _ _ _ _ _ _ _ _ _ HS)|].
        exists k', [x]. split; auto. split; auto. constructor; [|constructor].
        apply ks_elem; [lia|auto|]. rewrite K. constructor.
      + intros [B _]. exfalso. destruct Hn as [(_ & (m & ->) & _)|[_ [V|V]]].
        * discriminate.
        * rewrite V in B. rewrite andb_false_r in B. discriminate.
        * rewrite V in B. rewrite andb_false_r in B. discriminate.
    - (* pair *)
      inversion Hok as [| |? ? ? ? ? ? Hn Hv Hr He Hb Hm| | |]; subst.
      assert (H' : suf t i (open_src n ats ws false ++ flat_map item_src body ++ close_src n e ++ r)).
      { simpl in H. rewrite <- !app_assoc in H. rewrite open_src_eq in *. exact H. }
      clear H.
      destruct (name_head n Hn) as (c & m & En & _ & _ & Hbang).
      assert (Hcan : true = (match n with c :: _ => negb (c =? cBANG)%N | [] => true end)
                      && negb (is_void n) && negb false).
      { rewrite Hv, En. destruct (N.eqb_spec c cBANG); [congruence|reflexivity]. }
      eapply goes_trans.
      + exact (step_open s prev d k n ats ws false _ i HS (or_intror Hn) Hr H' _ Hcan).
      + intros i1 x s1 d1 (Si & Ex & Lx & Hn0 & Hq & C & -> & Hd & k1 & S1 & X1 & K1).
        (* the content *)
        eapply (goes_trans _ _ _ _ _ _ (max_depth < length s + item_depth (Pair n ats ws body e))
                  (max_depth < S (length s) + depth body) False).
        * apply (list_from_items body IH (Inside n) ((x, n) :: s) x d1 k1 (close_src n e ++ r) i1 S1).
          -- simpl. eauto.
          -- split; auto.
          -- apply stops_close.
          -- exact Si.
        * intros i2 p2 s2 d2 (-> & Si2 & Ld & k2 & ys & S2 & X2 & F2).
          assert (Hlk : linked b bot k2 s).
          { apply (linked_pop k2 s x n); [apply (ps_linked _ _ _ _ _ _ _ _ _ S2)|].
            eapply linked_len, (ps_linked _ _ _ _ _ _ _ _ _ HS). }
          assert (Si2' : suf t i2 (close_src n e ++ r)).
          { rewrite close_src_eq in Si2 |- *. exact Si2. }
          eapply goes_imp; [apply (step_close s x n p2 d2 k2 e r i2 S2 Hlk); auto| |tauto].
          { apply name_no_gt; auto. }
          intros i3 p3 s3 d3 (-> & -> & -> & Si3 & S3).
          split; auto. split; auto. split; [rewrite depth_pair; change (S (length s) + depth body <= max_depth) in Ld; lia|].
          simpl in X2.
          assert (Ho1 : old_key (length (nodes d1)) (curk b s)).
          { eapply old_key_mono; [eapply ps_cur_old; exact HS|lia]. }
          exists k2, [x]. split; auto. split.
          { change (item_opens (Pair n ats ws body e)) with ([(n, true)] ++ opens body).
            eapply ext_down; eauto. lia. }
          constructor; [|constructor].
          pose proof (e_len _ _ _ _ _ _ _ X2) as L2.
          apply ks_elem; [lia| |].
          -- rewrite <- C. apply (e_content _ _ _ _ _ _ _ X2). lia.
          -- rewrite (e_new _ _ _ _ _ _ _ X2), K1. simpl.
             eapply Forall2_map_r; [exact F2|]. apply Forall_forall. intros tr _ y Hy.
             eapply kshows_keep; eauto; [|lia]. intros z Hz. split; reflexivity.
        * intros B. rewrite depth_pair. lia.
        * tauto.
      + intros [_ B]. rewrite depth_pair. lia.
      + intros B. exact B.
    - (* run *)
      inversion Hok as [| | |? ? ? ? Hrun| |]; subst.
      eapply goes_imp; [eapply (step_run s prev d k w more after r i); eauto| |tauto].
      + simpl item_src in H. rewrite dropb_id in H; auto. destruct Hrun as ([Hw1 Hw2] & _ & _).
        destruct w as [|c w]; [congruence|]. simpl. apply text_char_spec, Hw2. simpl; auto.
      + intros i' p' s' d' Q. exact Q.
    - (* odd *)
      inversion Hok as [| | | |? ? ? ? Hrun Hodd|]; subst.
      eapply goes_imp; [eapply (step_odd pl s prev d k w more after r i); eauto| |tauto].
      intros i' p' s' d' Q. exact Q.
    - (* stray *)
      inversion Hok as [| | | | |? Hj]; subst. destruct Ht as [Es Eb].
      assert (H' : suf t i (close_src j [] ++ r)).
      { exact H. }
      eapply goes_imp; [eapply (step_stray s prev d k j r i); eauto| |tauto].
      intros i' p' s' d' Q. exact Q.
  Qed.

  Lemma list_ok l : list_stmt l.
  Proof. apply list_from_items. apply Forall_forall. intros x _. apply items_ok. Qed.

  (** ** Elements still open at the end *)
  Definition at_end (s : list frame) (d : dom) (k : kids) (ts : list tree) (evs : list (bytes * bool)) (dp : nat)
    : nat -> nat -> list frame -> dom -> Prop :=
    fun i' prev' s' d' => suf t i' [] /\ length s + dp <= max_depth /\
      exists k' xs, PSt s' prev' d' k' /\ ext (curk b s) d k d' k' xs evs /\
        kforest (length (nodes d)) (length (nodes d')) d' k' xs ts.

  Lemma opened_src_cons o os : opened_src (o :: os) =
    open_src (o_name o) (o_ats o) (o_ws o) false ++ source (o_body o) ++ opened_src os.
  Proof. unfold opened_src. cbn [flat_map]. now rewrite <- app_assoc. Qed.

  Lemma opened_stops os : (forall o, In o os -> opened_ok o) -> stops (opened_src os).
  Proof.
    intros H. destruct os as [|o os]; [apply stops_nil|].
    destruct (H o (or_introl eq_refl)) as (Hn & Hv & Hr & Hw).
    rewrite opened_src_cons. apply stops_open; auto.
  Qed.
  Lemma stops_dropb r : stops r -> dropb r = r.
  Proof. intros [-> |(r' & -> & _)]; reflexivity. Qed.

  Lemma kforest_wide lo hi lo' hi' d k xs ts : kforest lo hi d k xs ts -> lo' <= lo -> hi <= hi' ->
    kforest lo' hi' d k xs ts.
  Proof.
    intros F L1 L2. eapply Forall2_map_r; [exact F|]. apply Forall_forall. intros tr _ y Hy.
    eapply kshows_keep; eauto. intros z Hz. split; reflexivity.
  Qed.

  Lemma opened_end os : forall s prev d k i, PSt s prev d k ->
    (forall o, In o os -> opened_ok o) -> suf t i (opened_src os) ->
    goes i prev s d (at_end s d k (opened_trees os) (opened_opens os) (opened_depth os))
         (max_depth < length s + opened_depth os).
  Proof.
    induction os as [|o os IH]; intros s prev d k i HS Hok H.
    - eapply goes_now. split; auto.
      split; [rewrite Nat.add_0_r; apply (ps_depth _ _ _ _ _ _ _ _ _ HS)|].
      exists k, []. split; auto. split; [apply ext_refl|constructor].
    - destruct (Hok o (or_introl eq_refl)) as (Hn & Hv & Hr & Hw).
      assert (Hok' : forall o, In o os -> opened_ok o) by (intros; apply Hok; simpl; auto).
      rewrite opened_src_cons in H. set (n := o_name o) in *.
      destruct (name_head n Hn) as (c & m & En & _ & _ & Hbang).
      assert (Hcan : true = (match n with c :: _ => negb (c =? cBANG)%N | [] => true end)
                      && negb (is_void n) && negb false).
      { rewrite Hv, En. destruct (N.eqb_spec c cBANG); [congruence|reflexivity]. }
      cbn [opened_trees opened_depth]. fold n.
      eapply goes_trans.
      + exact (step_open s prev d k n (o_ats o) (o_ws o) false _ i HS (or_intror Hn) Hr H _ Hcan).
      + intros i1 x s1 d1 (Si & Ex & Lx & Hn0 & Hq & C & -> & Hd & k1 & S1 & X1 & K1).
        eapply (goes_trans _ _ _ _ _ _ (max_depth < length s + S (Nat.max (depth (o_body o)) (opened_depth os)))
                  (max_depth < S (length s) + depth (o_body o))
                  (max_depth < S (length s) + opened_depth os)).
        * apply (list_ok (o_body o) (Inside n) ((x, n) :: s) x d1 k1 (opened_src os) i1 S1).
          -- simpl. eauto.
          -- exact Hw.
          -- apply opened_stops. exact Hok'.
          -- exact Si.
        * intros i2 p2 s2 d2 (-> & Si2 & Ld & k2 & ys & S2 & X2 & F2).
          rewrite stops_dropb in Si2 by (apply opened_stops; exact Hok').
          eapply goes_imp; [apply (IH ((x, n) :: s) p2 d2 k2 i2 S2 Hok' Si2)| |auto].
          intros i3 p3 s3 d3 (Si3 & Ld3 & k3 & zs & S3 & X3 & F3).
          change (S (length s) + depth (o_body o) <= max_depth) in Ld.
          change (S (length s) + opened_depth os <= max_depth) in Ld3.
          split; auto. split; [lia|].
          simpl in X2, X3.
          assert (Ho1 : old_key (length (nodes d1)) (curk b s)).
          { eapply old_key_mono; [eapply ps_cur_old; exact HS|lia]. }
          pose proof (ext_trans _ _ _ _ _ _ _ _ _ _ _ X2 X3) as X23.
          exists k3, [x]. split; auto. split.
          { change (opened_opens (o :: os)) with ([(n, true)] ++ opens (o_body o) ++ opened_opens os).
            eapply ext_down; eauto. lia. }
          constructor; [|constructor].
          pose proof (e_len _ _ _ _ _ _ _ X2) as L2. pose proof (e_len _ _ _ _ _ _ _ X3) as L3.
          apply ks_elem; [lia| |].
          -- rewrite <- C. apply (e_content _ _ _ _ _ _ _ X23). lia.
          -- rewrite (e_new _ _ _ _ _ _ _ X23), K1. cbn [app].
             eapply (kforest_wide (length (nodes d1)) (length (nodes d3))); [|lia|lia].
             eapply kforest_ext; eauto. simpl. lia.
        * lia.
        * lia.
      + intros [_ B]. lia.
      + intros B. exact B.
  Qed.

  Lemma whole_end l os pl s prev d k i : PSt s prev d k -> top_ok pl s ->
    well_formed pl l -> (forall o, In o os -> opened_ok o) ->
    suf t i (dropb (source l ++ opened_src os)) ->
    goes i prev s d
      (at_end s d k (forest l ++ opened_trees os) (doc_opens l os) (Nat.max (depth l) (opened_depth os)))
      (max_depth < length s + Nat.max (depth l) (opened_depth os)).
  Proof.
    intros HS Ht Hw Hok H.
    eapply (goes_trans _ _ _ _ _ _ _ (max_depth < length s + depth l)
                 (max_depth < length s + opened_depth os)).
    - apply (list_ok l pl s prev d k (opened_src os) i); auto. apply opened_stops. auto.
    - intros i2 p2 s2 d2 (-> & Si2 & Ld & k2 & ys & S2 & X2 & F2).
      rewrite stops_dropb in Si2 by (apply opened_stops; exact Hok).
      eapply goes_imp; [apply (opened_end os s p2 d2 k2 i2 S2 Hok Si2)| |auto].
      intros i3 p3 s3 d3 (Si3 & Ld3 & k3 & zs & S3 & X3 & F3).
      split; auto. split; [lia|]. exists k3, (ys ++ zs). split; auto.
      split; [eapply ext_trans; eauto|]. eapply kforest_ext; eauto. eapply ps_cur_old; eauto.
    - lia.
    - lia.
  Qed.

  (** The whole parse. *)
  Lemma parse_whole l os pl s prev d k : PSt s prev d k -> s = bot -> top_ok pl s ->
    well_formed pl l -> (forall o, In o os -> opened_ok o) ->
    t = source l ++ opened_src os ->
    safe False (fun '(ok, d') =>
       (ok = true /\ length s + Nat.max (depth l) (opened_depth os) <= max_depth /\
        exists k' xs, ParseLoop.PW n0 d0 k0 b d' k' /\ ext b d k d' k' xs (doc_opens l os) /\
          kforest (length (nodes d)) (length (nodes d')) d' k' xs (forest l ++ opened_trees os)) \/
       (ok = false /\ max_depth < length s + Nat.max (depth l) (opened_depth os)))
      (parse below t prev s d).
  Proof.
    intros HS Es Ht Hw Hok E. unfold parse.
    destruct (suf_skip t 0 t (suf_zero t)) as (i & -> & Si & _). cbn [bind].
    rewrite E in Si at 2. rewrite Es at 1.
    pose proof (suf_len _ _ _ Si) as Hi.
    destruct (whole_end l os pl s prev d k i HS Ht Hw Hok Si)
      as [(m & i' & p' & s' & d' & Lm & Em & Q)|[(m & j & Lm & Em)|(B & m & d' & Lm & Em)]].
    - destruct Q as (Si' & Ld & k' & xs & S' & X & F).
      destruct (suf_nil _ _ Si') as (N1 & _ & N2).
      replace (S (length t)) with (m + (S (length t) - m)) by lia. rewrite Em.
      destruct (S (length t) - m) as [|f] eqn:Ef; [lia|]. cbn [parse_loop].
      setoid_rewrite N1. cbn [safe]. left. split; auto. split; auto.
      exists k', xs. split; [apply (ps_w _ _ _ _ _ _ _ _ _ S')|].
      rewrite Es in X. rewrite (curk_bot n0 b bot M) in X. auto.
    - replace (S (length t)) with (m + (S (length t) - m)) by lia. rewrite Em. exact I.
    - replace (S (length t)) with (m + (S (length t) - m)) by lia. rewrite Em.
      cbn [safe]. right. auto.
  Qed.
End Loop.

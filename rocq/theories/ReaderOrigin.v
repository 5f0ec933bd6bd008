(** * Everything in a parsed tree comes from the source, and no more than it holds. *)
From Coq Require Import List NArith Arith Bool Lia.
From Verif Require Import Base ParserModel GrammarSpec ReaderSpec OriginSpec
  GrammarScan GrammarText GrammarTag ReaderScan ReaderTag ReaderText ReaderFacts.
Import ListNotations.
Local Open Scope nat_scope.

Definition suffix (r t : bytes) : Prop := exists a, t = a ++ r.
Lemma suffix_refl t : suffix t t. Proof. now exists []. Qed.
Lemma suffix_trans a b c : suffix a b -> suffix b c -> suffix a c.
Proof. intros [x ->] [y ->]. exists (y ++ x). now rewrite app_assoc. Qed.
Lemma suffix_tl c r t : suffix (c :: r) t -> suffix r t.
Proof. intros [a ->]. exists (a ++ [c]). now rewrite <- app_assoc. Qed.
Lemma suffix_app a r t : suffix (a ++ r) t -> suffix r t.
Proof. intros [b ->]. exists (b ++ a). now rewrite app_assoc. Qed.
Lemma suffix_len r t : suffix r t -> length r <= length t.
Proof. intros [a ->]. rewrite app_length. lia. Qed.
Lemma slice_pre a r t : suffix (a ++ r) t -> slice a t.
Proof. intros [b ->]. exists b, r. reflexivity. Qed.
Lemma slice_nil t : slice [] t.
Proof. exists [], t. reflexivity. Qed.
Lemma suffix_dropb r : suffix (dropb r) r.
Proof. destruct (dropb_split r) as (ws & E & _). now exists ws. Qed.
Lemma suffix_span p r : suffix (snd (span p r)) r.
Proof. exists (fst (span p r)). apply span_app. Qed.
Lemma suffix_skipn n r : suffix (skipn n r) r.
Proof. exists (firstn n r). now rewrite firstn_skipn. Qed.
Lemma suffix_dashes r : suffix (after_dashes r) r.
Proof.
  induction r as [|c r IH]; [apply suffix_refl|]. cbn [after_dashes].
  destruct (starts _ _); [apply suffix_skipn|]. eapply suffix_trans; [exact IH|]. now exists [c].
Qed.
Lemma suffix_comment r : suffix (after_comment r) r.
Proof. eapply suffix_trans; [apply suffix_dashes|apply suffix_skipn]. Qed.
Lemma suffix_gt r : suffix (after_gt r) r.
Proof.
  unfold after_gt. eapply suffix_trans; [|apply (suffix_span (fun c => negb (c =? cGT)%N))].
  destruct (snd _) as [|c x]; [apply suffix_refl|]. now exists [c].
Qed.

Lemma prop_from r s r' : prop_at r = Some (s, r') ->
  suffix r' r /\ slice s r /\ length s + length r' <= length r.
Proof.
  destruct r as [|q y]; cbn [prop_at]; intros H.
  { injection H as <- <-. split; [apply suffix_refl|]. split; [apply slice_nil|auto]. }
  destruct (is_quote q).
  - destruct y as [|a y]; [discriminate|]. set (z := a :: y) in *.
    pose proof (span_app (fun c => negb (c =? q)%N) z) as E.
    set (p := fun c => negb (c =? q)%N) in *.
    destruct (snd (span p z)) as [|e r2] eqn:Es; injection H as Hs <-; [|subst s].
    + split; [exists (q :: z); now rewrite app_nil_r|].
      change (removelast z = s) in Hs.
      destruct (@exists_last _ z ltac:(discriminate)) as (y0 & b & Eb). rewrite Eb, removelast_last in Hs. subst y0. rewrite Eb.
      split; [exists [q], [b]; reflexivity|]. cbn [length]. rewrite app_length. lia.
    + split; [exists (q :: fst (span p z) ++ [e]); rewrite E at 1; cbn [app]; now rewrite <- app_assoc|].
      split; [exists [q], (e :: r2); rewrite E at 1; reflexivity|].
      cbn [length]. rewrite E. rewrite app_length. simpl. lia.
  - assert (H' : span bare_char (q :: y) = (s, r')) by congruence.
    pose proof (span_app bare_char (q :: y)) as E. rewrite H' in E. cbn [fst snd] in E.
    rewrite E. split; [now exists s|]. split; [now exists [], r'|]. rewrite app_length. lia.
Qed.

Definition vol_props (ps : list (bytes * bytes)) : nat := sum (map (fun kv => length (fst kv) + length (snd kv)) ps).
Definition vol_bools (bs : list bytes) : nat := sum (map (@length N) bs).
Lemma sum_app a b : sum (a ++ b) = sum a + sum b.
Proof. induction a as [|x a IH]; [reflexivity|]. change (x + sum (a ++ b) = x + sum a + sum b). lia. Qed.
Lemma sum_one n : sum [n] = n.
Proof. cbn. lia. Qed.
Lemma vol_bools_add bs b : vol_bools (bs ++ [b]) = vol_bools bs + length b.
Proof. unfold vol_bools. rewrite map_app, sum_app. cbn [map]. now rewrite sum_one. Qed.
Lemma vol_props_add ps k v : vol_props (ps ++ [(k, v)]) = vol_props ps + length k + length v.
Proof. unfold vol_props. rewrite map_app, sum_app. cbn [map fst snd]. rewrite sum_one. apply Nat.add_assoc. Qed.

Section From.
  Context (t : bytes).
  Definition bools_from (bs : list bytes) : Prop := forall b, In b bs -> slice b t.
  Definition props_from (ps : list (bytes * bytes)) : Prop := forall k v, In (k, v) ps -> slice k t /\ slice v t.
  Lemma bools_add bs b : bools_from bs -> slice b t -> bools_from (bs ++ [b]).
  Proof. intros H Hb x Hx. apply in_app_or in Hx as [Hx|[<-|[]]]; auto. Qed.
  Lemma props_add ps k v : props_from ps -> slice k t -> slice v t -> props_from (ps ++ [(k, v)]).
  Proof. intros H Hk Hv a b Hx. apply in_app_or in Hx as [Hx|[E|[]]]; auto. injection E as <- <-. auto. Qed.
  Lemma slice_suffix s r : slice s r -> suffix r t -> slice s t.
  Proof. intros (a & b & ->) [x ->]. exists (x ++ a), b. now rewrite <- !app_assoc. Qed.

  Lemma attrs_from : forall f can bs ps r can' bs' ps' r', length r < f ->
    attrs_at f can bs ps r = Some (can', bs', ps', r') -> suffix r t -> bools_from bs -> props_from ps ->
    suffix r' r /\ bools_from bs' /\ props_from ps' /\
    vol_bools bs' + vol_props ps' + length r' <= vol_bools bs + vol_props ps + length r /\
    length bs' + length ps' + length r' <= length bs + length ps + length r.
  Proof.
    induction f as [|f IH]; intros can bs ps r can' bs' ps' r' Hf H S Hb Hp; [lia|].
    cbn [attrs_at] in H. rewrite skip_blanks_dropb in H.
    pose proof (dropb_len r) as L. pose proof (dropb_head r) as Hh. pose proof (suffix_dropb r) as SD.
    destruct (dropb r) as [|c r1].
    { injection H as <- <- <- <-. split; auto. split; auto. split; auto. simpl. lia. }
    cbn [length] in L. pose proof (suffix_trans _ _ _ SD S) as Sc.
    destruct (N.eqb_spec c cGT) as [|Hc].
    { injection H as <- <- <- <-. split; [eapply suffix_tl; eauto|]. split; auto. split; auto. simpl. lia. }
    destruct (c =? cSLASH)%N.
    { apply IH in H; auto; [|lia|eapply suffix_tl; eauto]. destruct H as (H1 & H2 & H3 & H4 & H5).
      split; [eapply suffix_trans; [exact H1|eapply suffix_tl; eauto]|]. split; auto. split; auto. lia. }
    destruct (prop_at (c :: r1)) as [[k r2]|] eqn:E; [|discriminate].
    pose proof (attr_lt _ _ _ _ E Hh Hc) as A. destruct (prop_from _ _ _ E) as (S2 & K2 & L2).
    cbn [length] in L2. pose proof (slice_suffix _ _ K2 Sc) as K2'. pose proof (suffix_trans _ _ _ S2 Sc) as S2t.
    destruct r2 as [|e r3].
    { apply IH in H; auto; [|simpl; lia|now apply bools_add]. destruct H as (H1 & H2 & H3 & H4 & H5).
      rewrite vol_bools_add in H4. rewrite app_length in H5. cbn [length] in *.
      split; [eapply suffix_trans; [exact H1|exact (suffix_trans _ _ _ S2 SD)]|]. split; auto. split; auto. lia. }
    destruct (e =? cEQ)%N.
    - destruct (prop_at r3) as [[v r4]|] eqn:E3; [|discriminate]. specialize (A v r4 eq_refl).
      destruct (prop_from _ _ _ E3) as (S4 & K4 & L4). pose proof (suffix_tl _ _ _ S2t) as S3t.
      pose proof (slice_suffix _ _ K4 S3t) as K4'.
      apply IH in H; auto; [|lia|eapply suffix_trans; eauto|now apply props_add]. destruct H as (H1 & H2 & H3 & H4 & H5).
      rewrite vol_props_add in H4. rewrite app_length in H5. cbn [length] in *.
      split; [|split; auto; split; auto; lia].
      eapply suffix_trans; [exact H1|]. eapply suffix_trans; [exact S4|]. eapply suffix_trans; [|exact SD].
      eapply suffix_tl; eauto.
    - apply IH in H; auto; [|lia|now apply bools_add]. destruct H as (H1 & H2 & H3 & H4 & H5).
      rewrite vol_bools_add in H4. rewrite app_length in H5. cbn [length] in *.
      split; [eapply suffix_trans; [exact H1|exact (suffix_trans _ _ _ S2 SD)]|]. split; auto. split; auto. lia.
  Qed.

  Lemma tag_from r n bs ps can r' : tag_at r = Some (n, bs, ps, can, r') -> suffix r t ->
    suffix r' r /\ slice n t /\ bools_from bs /\ props_from ps /\
    length n + vol_bools bs + vol_props ps + length r' <= length r /\
    length bs + length ps + length r' <= length r.
  Proof.
    unfold tag_at. set (p := fun c => negb (c =? cGT)%N && negb (is_blank c)). intros H S.
    pose proof (span_app p r) as E. pose proof (span_len p r) as L. pose proof (suffix_span p r) as SS.
    destruct (attrs_at _ _ _ _ _) as [[[[c b] q] r2]|] eqn:Ea; [|discriminate].
    injection H as Hn <- <- <- <-.
    apply attrs_from in Ea; [|lia|eapply suffix_trans; eauto|intros x []|intros x y []].
    destruct Ea as (H1 & H2 & H3 & H4 & H5). cbn in H4, H5.
    assert (Ln : length n <= length (fst (span p r)) /\ slice n t).
    { assert (Sw : slice (fst (span p r)) t) by (rewrite E in S; eapply slice_pre; eauto).
      rewrite <- Hn. destruct (_ && _); [|auto].
      destruct (fst (span p r)) as [|a w] eqn:Ew; [auto|].
      destruct (@exists_last _ (a :: w) ltac:(discriminate)) as (y0 & z & Ez). rewrite Ez, removelast_last.
      split; [rewrite app_length; lia|]. rewrite Ez in Sw. destruct Sw as (x1 & x2 & ->).
      exists x1, (z :: x2). now rewrite <- !app_assoc. }
    destruct Ln as [Ln Sn]. split; [eapply suffix_trans; eauto|]. split; auto. split; auto. split; auto. lia.
  Qed.

  Definition words_from (ws : list bytes) : Prop :=
    forall w, In w ws -> w <> [] /\ slice w t /\ all text_char w.
  Lemma conc_cons w ws : conc (w :: ws) = cSP :: w ++ conc ws.
  Proof. reflexivity. Qed.
  Lemma conc_le ws : length (conc ws) <= 1 + length (join ws).
  Proof. destruct ws as [|w ws]; [cbn; auto|]. rewrite join_conc, conc_cons. cbn [length]. lia. Qed.

  Lemma words_origin : forall n r, length r <= n -> suffix r t ->
    suffix (snd (words r)) r /\ words_from (fst (words r)) /\
    length (join (fst (words r))) + length (snd (words r)) <= length r /\
    (no_word r -> length (conc (fst (words r))) + length (snd (words r)) <= length r).
  Proof.
    induction n as [|n IH]; intros r Hn S.
    { destruct r; [|simpl in Hn; lia]. rewrite words_nil. cbn. split; [apply suffix_refl|]. split; [intros w []|auto]. }
    destruct r as [|c r].
    { rewrite words_nil. cbn. split; [apply suffix_refl|]. split; [intros w []|auto]. }
    cbn [length] in Hn. destruct (is_blank c) eqn:Eb.
    { rewrite (words_blank c r Eb). destruct (IH r) as (I1 & I2 & I3 & I4); [lia|eapply suffix_tl; eauto|].
      pose proof (conc_le (fst (words r))). cbn [length].
      split; [eapply suffix_trans; [exact I1|now exists [c]]|]. split; auto. split; [lia|]. intros _. lia. }
    destruct (N.eqb_spec c cLT) as [->|Hc].
    { destruct (at_comment (cLT :: r)) eqn:Ec.
      - rewrite (words_comment _ _ Ec). pose proof (after_comment_len cLT r) as La.
        pose proof (suffix_comment (cLT :: r)) as Sa.
        destruct (IH (after_comment (cLT :: r))) as (I1 & I2 & I3 & I4); [lia|eapply suffix_trans; eauto|].
        pose proof (conc_le (fst (words (after_comment (cLT :: r))))). cbn [length].
        split; [eapply suffix_trans; eauto|]. split; auto. split; [lia|]. intros _. lia.
      - rewrite (words_lt _ Ec). cbn. split; [apply suffix_refl|]. split; [intros w []|]. split; auto. }
    pose proof (text_or c Eb Hc) as Et. rewrite (words_word c r Et). cbn [fst snd].
    pose proof (span_app text_char (c :: r)) as Sa. pose proof (span_all text_char (c :: r)) as Sl.
    pose proof (span_len text_char (c :: r)) as Sn. pose proof (suffix_span text_char (c :: r)) as Ss.
    pose proof (span_stop text_char (c :: r)) as Sp.
    assert (Hne : fst (span text_char (c :: r)) <> []) by (cbn [span]; rewrite Et; discriminate).
    set (w := fst (span text_char (c :: r))) in *. set (r2 := snd (span text_char (c :: r))) in *.
    assert (0 < length w) by (destruct w; [congruence|simpl; lia]). cbn [length] in *.
    destruct (IH r2) as (I1 & I2 & I3 & I4); [lia|eapply suffix_trans; eauto|].
    split; [eapply suffix_trans; eauto|]. split.
    { intros x [<-|Hx]; auto. split; auto. split; auto. rewrite Sa in S. eapply slice_pre; eauto. }
    assert (N2 : no_word r2) by (unfold no_word; destruct r2; auto). specialize (I4 N2).
    rewrite join_conc, app_length. split; [lia|]. intros X. unfold no_word in X. congruence.
  Qed.

  Lemma text_origin r : suffix r t -> suffix (snd (text_at r)) r /\ text_from t (fst (text_at r)) /\
    length (fst (text_at r)) + length (snd (text_at r)) <= length r.
  Proof.
    intros S. unfold text_at. fold (words r). cbn [fst snd].
    destruct (words_origin (length r) r (le_n _) S) as (I1 & I2 & I3 & I4). split; auto.
    destruct r as [|c r0].
    { rewrite words_nil in *. cbn. split; [|auto]. exists []. split; auto. split; intros w []. }
    destruct (is_blank c) eqn:Eb.
    - split.
      + exists ([] :: fst (words (c :: r0))). split; auto. cbn [tl]. split; [intros w Hw; apply I2 in Hw; tauto|].
        intros w [<-|Hw]; [split; [apply slice_nil|intros x []]|]. apply I2 in Hw. tauto.
      + rewrite join_conc. cbn [app]. apply I4. cbn. unfold text_char. now rewrite Eb.
    - split; auto. exists (fst (words (c :: r0))). split; auto.
      split; [|intros w Hw; apply I2 in Hw; tauto].
      intros w Hw. assert (In w (fst (words (c :: r0)))) as Hi.
      { destruct (fst (words (c :: r0))); [destruct Hw|simpl in *; auto]. }
      apply I2 in Hi. tauto.
  Qed.

  (** Open elements. *)
  Fixpoint st_from (st : list open_elem) : Prop :=
    match st with
    | [] => True
    | (n, bs, ps, before) :: st' => slice n t /\ bools_from bs /\ props_from ps /\
        Forall (tree_from t) before /\ st_from st'
    end.
  Definition vols (l : list tree) : nat := sum (map volume l).
  Definition ents (l : list tree) : nat := sum (map entries l).
  Fixpoint st_vol (st : list open_elem) : nat :=
    match st with
    | [] => 0
    | (n, bs, ps, before) :: st' => length n + vol_bools bs + vol_props ps + vols before + st_vol st'
    end.
  Fixpoint st_ent (st : list open_elem) : nat :=
    match st with
    | [] => 0
    | (n, bs, ps, before) :: st' => 1 + length bs + length ps + ents before + st_ent st'
    end.
  Lemma vols_add l x : vols (l ++ [x]) = vols l + volume x.
  Proof. unfold vols. rewrite map_app, sum_app. cbn [map]. now rewrite sum_one. Qed.
  Lemma ents_add l x : ents (l ++ [x]) = ents l + entries x.
  Proof. unfold ents. rewrite map_app, sum_app. cbn [map]. now rewrite sum_one. Qed.
  Lemma vol_elem n bs ps ks : volume (Elem n bs ps ks) = length n + vol_bools bs + vol_props ps + vols ks.
  Proof. reflexivity. Qed.
  Lemma ent_elem n bs ps ks : entries (Elem n bs ps ks) = 1 + length bs + length ps + ents ks.
  Proof. reflexivity. Qed.
  Lemma from_add l x : Forall (tree_from t) l -> tree_from t x -> Forall (tree_from t) (l ++ [x]).
  Proof. intros H Hx. apply Forall_app. auto. Qed.
  Lemma close_from : forall st cur, Forall (tree_from t) cur -> st_from st ->
    Forall (tree_from t) (close_all cur st) /\
    vols (close_all cur st) = vols cur + st_vol st /\ ents (close_all cur st) = ents cur + st_ent st.
  Proof.
    induction st as [|[[[n bs] ps] bf] st IH]; intros cur Hc Hs; cbn [close_all st_vol st_ent].
    { split; auto. }
    destruct Hs as (H1 & H2 & H3 & H4 & H5).
    destruct (IH (bf ++ [Elem n bs ps cur])) as (I1 & I2 & I3); auto.
    { apply from_add; auto. constructor; auto. }
    rewrite I2, I3, vols_add, ents_add, vol_elem, ent_elem. split; auto. lia.
  Qed.

  Lemma rd_from base limit : forall n cur st us r ts us', length r <= n -> suffix r t ->
    Forall (tree_from t) cur -> st_from st -> rd base limit cur st us r = Trees ts us' ->
    Forall (tree_from t) ts /\ vols ts <= vols cur + st_vol st + length r /\
    ents ts <= ents cur + st_ent st + length r.
  Proof.
    induction n as [n IH] using lt_wf_ind; intros cur st us r ts us' Hn S Hc Hs H.
    rewrite rd_eq in H. pose proof (dropb_len r) as L. pose proof (dropb_head r) as Hh.
    pose proof (suffix_trans _ _ _ (suffix_dropb r) S) as SD.
    destruct (dropb r) as [|c r1].
    { injection H as <- <-. destruct (close_from st cur Hc Hs) as (I1 & -> & ->). split; auto. lia. }
    cbn [length] in L. pose proof (suffix_tl _ _ _ SD) as S1.
    assert (IH' : forall cur st us r' ts us', length r' <= length r1 -> suffix r' t ->
      Forall (tree_from t) cur -> st_from st -> rd base limit cur st us r' = Trees ts us' ->
      Forall (tree_from t) ts /\ vols ts <= vols cur + st_vol st + length r' /\
      ents ts <= ents cur + st_ent st + length r').
    { intros. eapply (IH (length r1)); eauto; lia. }
    clear IH.
    destruct (at_comment (c :: r1)) eqn:Ec.
    { pose proof (after_comment_len c r1) as La.
      apply IH' in H; auto; [|eapply suffix_trans; [apply suffix_comment|eauto]].
      destruct H as (I1 & I2 & I3). split; auto. lia. }
    destruct (at_end_tag (top_name base st) (c :: r1)) eqn:Ee.
    { pose proof (at_end_tag_lt _ _ _ Ee) as ->. pose proof (after_gt_lt cLT r1 ltac:(discriminate)) as La.
      pose proof (suffix_trans _ _ _ (suffix_gt (cLT :: r1)) SD) as Sg.
      destruct st as [|[[[n' bs] ps] bef] st'].
      - apply IH' in H; auto. destruct H as (I1 & I2 & I3). split; auto. lia.
      - destruct Hs as (H1 & H2 & H3 & H4 & H5). apply IH' in H; auto.
        2:{ apply from_add; auto. constructor; auto. }
        destruct H as (I1 & I2 & I3). rewrite vols_add, vol_elem in I2. rewrite ents_add, ent_elem in I3.
        cbn [st_vol st_ent]. split; auto. lia. }
    destruct (at_tag c r1) eqn:Et.
    - destruct (tag_at r1) as [[[[[n' bs] ps] can] r2]|] eqn:E; [|discriminate].
      destruct (tag_from _ _ _ _ _ _ E S1) as (T1 & T2 & T3 & T4 & T5 & T6).
      pose proof (suffix_trans _ _ _ T1 S1) as S2.
      destruct can.
      + destruct (limit <=? length st); [discriminate|]. apply IH' in H; auto; [|lia|cbn [st_from]; auto].
        destruct H as (I1 & I2 & I3). cbn [st_vol st_ent] in I2, I3. cbn in I2, I3. split; auto. unfold vols, ents in *. lia.
      + apply IH' in H; auto; [|lia|apply from_add; auto; constructor; auto].
        destruct H as (I1 & I2 & I3). rewrite vols_add, vol_elem in I2. rewrite ents_add, ent_elem in I3.
        cbn in I2, I3. split; auto. unfold vols, ents in *. lia.
    - cbv zeta in H. destruct (N.eqb_spec c cLT) as [->|Hlt].
      + destruct (text_origin r1 S1) as (T1 & T2 & T3).
        apply IH' in H; auto; [|lia|eapply suffix_trans; eauto|apply from_add; auto; now constructor].
        destruct H as (I1 & I2 & I3). rewrite vols_add in I2. rewrite ents_add in I3. cbn [volume entries] in *.
        split; auto. lia.
      + pose proof (text_or c Hh Hlt) as Tc.
        destruct (text_origin (c :: r1) SD) as (T1 & T2 & T3). pose proof (text_lt c r1 Tc) as T4. cbn [length] in T3.
        apply IH' in H; auto; [|eapply suffix_trans; eauto|apply from_add; auto; now constructor].
        destruct H as (I1 & I2 & I3). rewrite vols_add in I2. rewrite ents_add in I3. cbn [volume entries] in *.
        split; auto. lia.
  Qed.
End From.

Lemma document_origin t ts us : document_of t = Trees ts us ->
  Forall (tree_from t) ts /\ sum (map volume ts) <= length t /\ sum (map entries ts) <= length t.
Proof.
  intros H. apply (rd_from t [] 255 (length t) [] [] [] t ts us) in H; auto.
  - apply suffix_refl. - exact I.
Qed.
Lemma fragment_origin b t ts us : fragment_of b t = Trees ts us ->
  Forall (tree_from t) ts /\ sum (map volume ts) <= length t /\ sum (map entries ts) <= length t.
Proof.
  intros H. apply (rd_from t b 256 (length t) [] [] [] t ts us) in H; auto.
  - apply suffix_refl. - exact I.
Qed.

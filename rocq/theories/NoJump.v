(** * The arena's longjmp is taken only when a 16-bit limit is exceeded.

    [room d c]: node table and the four interning maps have [c] free ids.
    Every function below returns normally (or has undefined behaviour, which
    other files exclude) when there is room for what it creates. *)
From Coq Require Import List NArith Arith Bool Lia.
From Verif Require Import Base TrieModel DomModel ParserModel EditModel ReadModel
     DomSpec ApiSpec Lemmas.
Import ListNotations.
Local Open Scope nat_scope.

Definition nj {A} (Q : A -> Prop) (o : outcome A) : Prop :=
  match o with Ok a => Q a | Longjmp _ => False | _ => True end.

Lemma nj_bind {A B} (P : A -> Prop) (Q : B -> Prop) x f :
  nj P x -> (forall a, P a -> nj Q (f a)) -> nj Q (bind x f).
Proof. destruct x; simpl; auto. Qed.
Lemma nj_imp {A} (P Q : A -> Prop) x : nj P x -> (forall a, P a -> Q a) -> nj Q x.
Proof. destruct x; simpl; auto. Qed.
Lemma nj_no {A} (Q : A -> Prop) x j : nj Q x -> x <> Longjmp j.
Proof. destruct x; simpl; try discriminate. tauto. Qed.

Definition free (n c : nat) : Prop := (N.of_nat n + N.of_nat c <= 65535)%N.
Definition room (d : dom) (c : nat) : Prop :=
  free (length (nodes d)) c /\ free (mident (tag_map d)) c /\
  free (mident (bool_map d)) c /\ free (mident (key_map d)) c /\
  free (mident (val_map d)) c.
Definition same_caps (d d' : dom) : Prop :=
  length (nodes d') = length (nodes d) /\ mident (tag_map d') = mident (tag_map d) /\
  mident (bool_map d') = mident (bool_map d) /\ mident (key_map d') = mident (key_map d) /\
  mident (val_map d') = mident (val_map d).

Lemma free_less n c c' : free n c -> c' <= c -> free n c'.
Proof. unfold free. lia. Qed.
Lemma free_S n c : free n (S c) -> free (S n) c.
Proof. unfold free. lia. Qed.
Lemma room_less d c c' : room d c -> c' <= c -> room d c'.
Proof. unfold room. intuition eauto using free_less. Qed.
Ltac rless := cbv beta in *; eapply room_less; [eassumption|lia].
Lemma caps_refl d : same_caps d d.
Proof. unfold same_caps. auto. Qed.
Lemma caps_trans a b c : same_caps a b -> same_caps b c -> same_caps a c.
Proof. unfold same_caps. intuition congruence. Qed.
Lemma room_caps d d' c : same_caps d d' -> room d c -> room d' c.
Proof. unfold same_caps, room. intros (-> & -> & -> & -> & ->). auto. Qed.
Lemma free_less1 n c : free n (S c) -> free n c.
Proof. intros; eapply free_less; eauto. Qed.
Global Hint Resolve free_less1 free_S caps_refl : nj.

Lemma nj_get_char t i : nj (fun c => nth_error t i = Some c) (get_char t i).
Proof. unfold get_char. destruct (nth_error t i); simpl; auto. Qed.
Lemma nj_read_slice t i n : nj (fun _ => True) (read_slice t i n).
Proof. unfold read_slice. destruct (_ <=? _); simpl; auto. Qed.
Lemma nj_child_index m h : nj (fun _ => True) (child_index m h).
Proof.
  unfold child_index. destruct m;
    [destruct (_ <? _)%N|destruct (N.ltb _ 32)]; simpl; auto.
Qed.
Lemma nj_trie_find m key t : forall h, nj (fun _ => True) (trie_find m h key t).
Proof.
  induction t as [|k v c0 IH0 c1 IH1 c2 IH2 c3 IH3]; intros h; simpl; auto.
  destruct (beq key k); simpl; auto.
  eapply nj_bind; [apply nj_child_index|]. intros i _.
  destruct i as [|[[]|[]|]]; auto.
Qed.
Lemma nj_trie_add m key v t : forall h, nj (fun _ => True) (trie_add m h key v t).
Proof.
  induction t as [|k w c0 IH0 c1 IH1 c2 IH2 c3 IH3]; intros h; simpl; auto.
  eapply nj_bind; [apply nj_child_index|]. intros i _.
  destruct i as [|[[]|[]|]]; (eapply nj_bind; [auto|]; simpl; auto).
Qed.
Lemma nj_map_insert s m c :
  free (mident m) (S c) ->
  nj (fun '(_, _, m') => free (mident m') c) (map_insert s m).
Proof.
  intros F. unfold map_insert, map_insert_m.
  eapply nj_bind; [apply nj_trie_find|]. intros [|v] _.
  - destruct (N.eqb_spec (N.of_nat (mident m)) 65535) as [E|E].
    + unfold free in F. exfalso. lia.
    + eapply nj_bind; [apply nj_trie_add|]. intros r _. cbn. auto with nj.
  - cbn. auto with nj.
Qed.
Lemma nj_map_contains s m : nj (fun _ => True) (map_contains s m).
Proof. apply nj_trie_find. Qed.

Lemma nj_create_node ty d c : room d (S c) ->
  nj (fun '(_, d') => room d' c /\ length (nodes d') = S (length (nodes d))) (create_node ty d).
Proof.
  intros (H1 & H2 & H3 & H4 & H5). unfold create_node.
  destruct (N.leb_spec (N.of_nat (length (nodes d))) 65534) as [E|E].
  - simpl. rewrite app_length. simpl. rewrite Nat.add_1_r.
    unfold room; simpl. rewrite app_length; simpl. rewrite Nat.add_1_r.
    auto 10 with nj.
  - unfold free in H1. exfalso. lia.
Qed.
Lemma nj_set_pay d i p : nj (same_caps d) (set_pay d i p).
Proof.
  unfold set_pay, get_node. destruct (nth_error (nodes d) i); simpl; auto.
  unfold same_caps; simpl. rewrite upd_length. auto.
Qed.
Ltac room5 H := destruct H as (?H1 & ?H2 & ?H3 & ?H4 & ?H5).
Lemma nj_intern_key s d c : room d (S c) ->
  nj (fun '(_, d') => free (length (nodes d')) (S c) /\ free (mident (tag_map d')) (S c) /\
     free (mident (bool_map d')) (S c) /\ free (mident (key_map d')) c /\
     free (mident (val_map d')) (S c)) (intern_key s d).
Proof.
  intros R. room5 R. unfold intern_key. eapply nj_bind; [apply nj_map_insert; eauto|].
  intros [[ins id] m] F. simpl. auto 10.
Qed.
Lemma nj_add_property id k v d c : room d (S c) -> nj (fun d' => room d' c) (add_property id k v d).
Proof.
  intros R. unfold add_property. eapply nj_bind; [apply nj_intern_key; eauto|].
  intros [kid d1] (H1 & H2 & H3 & H4 & H5). unfold intern_val. rewrite bind_assoc.
  eapply nj_bind; [apply nj_map_insert; eauto|]. intros [[ins vid] m] F.
  unfold room; simpl. auto 10 with nj.
Qed.
Lemma nj_add_bool id b d c : room d (S c) -> nj (fun d' => room d' c) (add_bool_property id b d).
Proof.
  intros R. room5 R. unfold add_bool_property, intern_bool. rewrite bind_assoc.
  eapply nj_bind; [apply nj_map_insert; eauto|]. intros [[ins bid] m] F.
  unfold room; simpl. auto 10 with nj.
Qed.
Lemma nj_set_tag tag id p d c : room d (S c) -> nj (fun d' => room d' c) (set_tag tag id p d).
Proof.
  intros R. room5 R. unfold set_tag. eapply nj_bind; [apply nj_map_insert; eauto|].
  intros [[ins tid] m] F. cbv zeta. eapply nj_imp; [apply nj_set_pay|].
  intros d' E. eapply room_caps; [exact E|]. unfold room; simpl. auto 10 with nj.
Qed.

(** ** Scanning moves forward *)
Lemma nj_scan_until fuel t stop :
  (forall k c, nj (fun _ => True) (stop k c)) ->
  forall i, nj (fun j => i <= j /\ (i <= length t -> j <= length t) /\
                  (forall c, nth_error t i = Some c -> j = i -> stop i c = Ok true))
               (scan_until fuel t stop i).
Proof.
  intros Hs. induction fuel as [|f IH]; intros i; simpl.
  - destruct (Nat.ltb_spec i (length t)) as [L|L]; simpl; auto.
    + eapply nj_bind; [apply nj_get_char|]. intros c Hc.
      destruct (stop i c) as [b|u|j|] eqn:E; simpl; auto.
      * destruct b; simpl; auto. repeat split; auto. intros; congruence.
      * specialize (Hs i c). rewrite E in Hs. exact Hs.
    + repeat split; auto. intros c Hc _.
      assert (i < length t) by (apply nth_error_Some; congruence). lia.
  - destruct (Nat.ltb_spec i (length t)) as [L|L]; simpl; auto.
    + eapply nj_bind; [apply nj_get_char|]. intros c Hc.
      destruct (stop i c) as [b|u|j|] eqn:E; simpl; auto.
      * destruct b; simpl; auto.
        -- repeat split; auto. intros; congruence.
        -- eapply nj_imp; [apply IH|]. intros j (A & B & _). repeat split; try lia.
           
      * specialize (Hs i c). rewrite E in Hs. exact Hs.
    + repeat split; auto. intros c Hc _.
      assert (i < length t) by (apply nth_error_Some; congruence). lia.
Qed.
Lemma nj_scan t stop i :
  nj (fun j => i <= j /\ (i <= length t -> j <= length t) /\
        (forall c, nth_error t i = Some c -> j = i -> stop c = true)) (scan t stop i).
Proof.
  unfold scan. eapply nj_imp; [apply nj_scan_until; intros; exact I|].
  intros j (A & B & C). repeat split; auto. intros c Hc E. specialize (C c Hc E). congruence.
Qed.
Lemma nj_skip_space t i : nj (fun j => i <= j /\ (i <= length t -> j <= length t)) (skip_space t i).
Proof. eapply nj_imp; [apply nj_scan|]. simpl. tauto. Qed.
Lemma nj_is_comment t i : nj (fun _ => True) (is_comment t i).
Proof.
  unfold is_comment. destruct (_ <? _); simpl; auto.
  eapply nj_bind; [apply nj_read_slice|]. simpl; auto.
Qed.
Lemma nj_is_close t i tag : nj (fun _ => True) (is_close_tag t i tag).
Proof.
  unfold is_close_tag. destruct (_ <? _); [|exact I].
  eapply nj_bind; [apply nj_read_slice|]. intros s _. destruct (beq [cSLASH] s); [|exact I].
  eapply nj_bind; [apply nj_read_slice|]. simpl; auto.
Qed.
Lemma nj_is_end t i tag : nj (fun _ => True) (is_end_tag t i tag).
Proof.
  unfold is_end_tag. destruct (_ && _); simpl; auto.
  eapply nj_bind; [apply nj_read_slice|]. simpl; auto.
Qed.
Lemma nj_skip_comment t i : nj (fun j => i < j) (skip_comment t i).
Proof.
  unfold skip_comment. eapply nj_bind; [apply nj_scan_until|].
  - intros k c. destruct (_ =? _)%N; simpl; auto. eapply nj_bind with (P := fun _ => True).
    + destruct k as [|[|k]]; simpl; auto. apply nj_read_slice.
    + simpl; auto.
  - simpl. intros j (A & _). lia.
Qed.
Lemma nj_text_continue t i c : nj (fun _ => True) (text_continue t i c).
Proof.
  unfold text_continue. destruct (negb (is_fmt c)); simpl; auto.
  destruct (negb _); simpl; auto. destruct i; simpl; auto.
  eapply nj_bind; [apply nj_get_char|]. intros p _. destruct (negb _); simpl; auto.
Qed.
Lemma nj_text_chunk t i :
  nj (fun '(_, j) => i <= j /\ (forall c, nth_error t i = Some c -> j = i ->
        text_continue t i c = Ok false)) (text_chunk t i).
Proof.
  unfold text_chunk. eapply nj_bind; [apply nj_scan_until|].
  - intros k c. eapply nj_bind; [apply nj_text_continue|]. simpl; auto.
  - intros j (A & _ & C). simpl in *.
    eapply nj_bind with (P := fun _ => True).
    { destruct (0 <? j); simpl; auto. eapply nj_bind; [apply nj_get_char|]. simpl; auto. }
    intros trim _. eapply nj_bind with (P := fun _ => True).
    { destruct trim; simpl; auto. destruct (j - i); simpl; auto. }
    intros len _. eapply nj_bind; [apply nj_read_slice|]. intros s _. simpl. split; auto.
    intros c Hc E. specialize (C c Hc E).
    destruct (text_continue t i c) as [[]|u|jj|]; simpl in C; congruence.
Qed.
Lemma nj_text_loop fuel t sp tag : forall raw i,
  nj (fun '(_, j) => i <= j) (text_loop fuel t sp tag raw i).
Proof.
  induction fuel as [|f IH]; intros raw i; simpl.
  - destruct (i <? length t); simpl; auto. eapply nj_bind; [apply nj_get_char|].
    intros c _. eapply nj_bind with (P := fun _ => True).
    { destruct (_ =? _)%N; simpl; auto. eapply nj_bind; [apply nj_is_comment|].
      intros [] _; simpl; auto. destruct sp; simpl; auto. apply nj_is_close. }
    intros [] _; simpl; auto.
  - destruct (i <? length t); simpl; auto. eapply nj_bind; [apply nj_get_char|].
    intros c _. eapply nj_bind with (P := fun _ => True).
    { destruct (_ =? _)%N; simpl; auto. eapply nj_bind; [apply nj_is_comment|].
      intros [] _; simpl; auto. destruct sp; simpl; auto. apply nj_is_close. }
    intros [] _; simpl; auto. eapply nj_bind with (P := fun _ => True).
    { destruct (_ =? _)%N; simpl; auto. apply nj_is_comment. }
    intros cm _. eapply nj_bind with (P := fun '(_, j) => i <= j).
    { destruct cm; simpl.
      - eapply nj_bind; [apply nj_skip_comment|]. simpl. intros; lia.
      - eapply nj_bind; [apply nj_text_chunk|]. intros [s j] (A & _). simpl. auto. }
    intros [raw' i'] A. eapply nj_bind; [apply nj_skip_space|].
    intros i'' (B & _). eapply nj_imp; [apply IH|]. intros [s j] C. lia.
Qed.

(** At a non-blank character that is not '<' the text parser makes progress. *)
Lemma nj_text_loop_first t sp tag raw i c fuel :
  nth_error t i = Some c -> is_blank c = false -> c <> cLT ->
  nj (fun '(_, j) => i < j) (text_loop (S fuel) t sp tag raw i).
Proof.
  intros Hc Hb Hl. assert (L : i < length t) by (apply nth_error_Some; congruence).
  cbn -[Nat.ltb]. destruct (Nat.ltb_spec i (length t)); [|lia].
  rewrite (get_char_ok _ _ _ Hc). cbn [bind].
  destruct (N.eqb_spec c cLT); [congruence|]. cbn [bind].
  eapply nj_bind with (P := fun '(_, j) => i < j).
  - eapply nj_bind; [apply nj_text_chunk|]. intros [s j] (A & B). simpl.
    destruct (Nat.eq_dec j i) as [E|]; [|lia]. specialize (B c Hc E).
    unfold is_blank in Hb. apply orb_false_iff in Hb as [Hs Hf].
    unfold text_continue in B. rewrite Hf, Hs in B. simpl in B.
    destruct (N.eqb_spec c cLT); simpl in B; congruence.
  - intros [raw' i'] A. eapply nj_bind; [apply nj_skip_space|].
    intros i'' (B & _). eapply nj_imp; [apply nj_text_loop|]. intros [s j] C. lia.
Qed.

Lemma nj_parse_text_node t i tag d c :
  room d (S c) ->
  nj (fun '(_, j, d') => room d' c /\ i <= j /\
        (forall ch, nth_error t i = Some ch -> is_blank ch = false -> ch <> cLT -> i < j))
     (parse_text_node t i tag d).
Proof.
  intros R. unfold parse_text_node. eapply nj_bind; [apply nj_create_node; eauto|].
  intros [id d1] (R1 & _). cbv zeta.
  set (o := text_loop _ _ _ _ _ _).
  assert (A : nj (fun '(_, j) => i <= j /\ (forall ch, nth_error t i = Some ch ->
              is_blank ch = false -> ch <> cLT -> i < j)) o).
  { destruct (nth_error t i) as [ch|] eqn:E.
    - destruct (is_blank ch) eqn:Eb; [|destruct (N.eq_dec ch cLT)].
      + eapply nj_imp; [apply nj_text_loop|]. intros [s j] H. split; auto. congruence.
      + eapply nj_imp; [apply nj_text_loop|]. intros [s j] H. split; auto. congruence.
      + eapply nj_imp; [eapply nj_text_loop_first; eauto|]. intros [s j] H.
        split; [lia|auto].
    - eapply nj_imp; [apply nj_text_loop|]. intros [s j] H. split; auto. congruence. }
  eapply nj_bind; [exact A|]. intros [s j] (B1 & B2).
  eapply nj_bind; [apply nj_set_pay|]. intros d2 E. simpl.
  split; [eapply room_caps; eauto|auto].
Qed.

Lemma nj_quoted fuel t q : forall count i used,
  nj (fun '(_, j) => i <= j /\ (count < 2 -> i < length t -> i < j)) (quoted_loop fuel t q count i used).
Proof.
  induction fuel as [|f IH]; intros count i used; simpl.
  - destruct (Nat.ltb_spec i (length t)); simpl; [|split; lia].
    eapply nj_bind; [apply nj_get_char|]. intros c _.
    destruct (Nat.ltb_spec count 2); simpl; auto. split; lia.
  - destruct (Nat.ltb_spec i (length t)); simpl; [|split; lia].
    eapply nj_bind; [apply nj_get_char|]. intros c _.
    destruct (Nat.ltb_spec count 2); simpl; [|split; lia].
    eapply nj_imp; [apply IH|]. intros [u j] (A & _). split; lia.
Qed.
Lemma nj_parse_prop t i :
  nj (fun '(_, j) => i <= j /\
     (forall c, nth_error t i = Some c -> is_blank c = false -> c <> cGT ->
        i < j \/ (j = i /\ c = cEQ)))
     (parse_prop t i).
Proof.
  unfold parse_prop. destruct (_ || _) eqn:Q.
  - eapply nj_bind; [apply nj_quoted|]. intros [u j] (A & B).
    destruct u as [|[|u]]; simpl; auto. eapply nj_bind; [apply nj_read_slice|].
    intros s _. simpl. split; auto. intros c Hc _ _. left. apply B; [lia|].
    apply nth_error_Some. congruence.
  - eapply nj_bind; [apply nj_scan|]. intros j (A & _ & C).
    eapply nj_bind; [apply nj_read_slice|]. intros s _. simpl. split; auto.
    intros c Hc Hb Hg. destruct (Nat.eq_dec j i) as [E|]; [|left; lia].
    specialize (C c Hc E). simpl in C. rewrite Hb in C. simpl in C.
    destruct (N.eqb_spec c cEQ); [auto|]. destruct (N.eqb_spec c cGT); [congruence|].
    discriminate.
Qed.

Lemma nj_attr_loop fuel t id : forall can i d c,
  room d (c + (length t - i)) ->
  nj (fun '(_, j, d') => room d' (c + (length t - j)) /\ i <= j) (attr_loop fuel t id can i d).
Proof.
  induction fuel as [|f IH]; intros can i d c R; simpl.
  - destruct (Nat.ltb_spec i (length t)); simpl; auto.
    eapply nj_bind; [apply nj_get_char|]. intros ch _. destruct (_ =? _)%N; simpl; auto.
  - destruct (Nat.ltb_spec i (length t)) as [L|]; simpl; auto.
    eapply nj_bind; [apply nj_get_char|]. intros ch Hc.
    destruct (N.eqb_spec ch cGT) as [|G]; simpl; auto.
    eapply nj_bind with (P := fun '(_, j, d') => room d' (c + (length t - j)) /\ i <= j).
    + destruct (N.eqb_spec ch cSLASH).
      { simpl. split; [|lia]. rless. }
      destruct (is_blank ch) eqn:Eb; simpl; [auto|].
      eapply nj_bind; [apply nj_parse_prop|]. intros [key j] (A & B).
      specialize (B ch Hc Eb G).
      assert (LI : length t - i = S (length t - S i)) by lia.
      rewrite LI, Nat.add_succ_r in R.
      destruct (N.eqb_spec (current_char t j) cEQ) as [E|E]; simpl.
      * eapply nj_bind; [apply nj_parse_prop|]. intros [v j2] (A2 & _).
        eapply nj_bind; [apply nj_add_property; eauto|]. intros d' R'. simpl.
        split; [|lia]. rless.
      * assert (i < j).
        { destruct B as [B|[-> ->]]; auto. exfalso. apply E. unfold current_char.
          now rewrite Hc. }
        eapply nj_bind; [apply nj_add_bool; eauto|]. intros d' R'. simpl.
        split; [|lia]. rless.
    + intros [[can' i'] d'] (R' & L').
      eapply nj_bind; [apply nj_skip_space|]. intros i'' (A & _).
      eapply nj_imp; [apply IH with (c := c)|].
      * rless.
      * intros [[x y] z] (B & C). split; auto. lia.
Qed.

Lemma nj_parse_document_node t i ex d c ch :
  nth_error t i = Some ch -> room d (c + S (length t - i)) ->
  is_blank ch = false -> ch <> cGT ->
  nj (fun '(_, _, _, j, d') => room d' (c + (length t - j)) /\ i < j) (parse_document_node t i ex d).
Proof.
  intros Hc R Hb Hg. assert (L : i < length t) by (apply nth_error_Some; congruence).
  unfold parse_document_node.
  rewrite Nat.add_succ_r in R.
  eapply nj_bind; [apply nj_create_node; eauto|]. intros [id d1] (R1 & _).
  eapply nj_bind; [apply nj_scan|]. intros j (A & _ & C). simpl in C.
  assert (A' : i < j).
  { destruct (Nat.eq_dec j i) as [E|]; [|lia]. specialize (C ch Hc E). rewrite Hb in C.
    destruct (N.eqb_spec ch cGT); [congruence|discriminate]. }
  cbv zeta.
  eapply nj_bind with (P := fun _ => True).
  { destruct (_ =? _)%N; simpl; auto. destruct j; simpl; auto.
    eapply nj_bind; [apply nj_get_char|]. simpl; auto. }
  intros sl _. eapply nj_bind with (P := fun _ => True).
  { destruct sl; simpl; auto. destruct (j - i); simpl; auto. }
  intros [can size] _. eapply nj_bind; [apply nj_read_slice|]. intros tag _.
  eapply nj_bind; [apply nj_skip_space|]. intros j2 (A2 & _).
  eapply nj_bind; [apply nj_attr_loop with (c := S c)|].
  - rless.
  - intros [[can2 j3] d2] (R2 & A3).
    eapply nj_bind; [apply nj_set_tag with (c := c + (length t - j3)); exact R2|].
    intros d3 R3. simpl. split; [|lia]. rless.
Qed.

Lemma caps_update_refs n p s d : same_caps d (update_refs n p s d).
Proof.
  unfold update_refs. destruct (_ && _); [|apply caps_refl].
  destruct s as [|[q tg] s]; [unfold same_caps; simpl; auto|].
  destruct (_ =? _); unfold same_caps; simpl; auto.
Qed.

Lemma nj_top_tag bl s : nj (fun _ => True) (top_tag bl s).
Proof. destruct s as [|[q tg] s]; simpl; auto. destruct bl; simpl; auto. Qed.

Lemma nj_parse_step bl t st i prev s d c :
  i < length t -> (forall ch, nth_error t i = Some ch -> is_blank ch = false) ->
  room d (c + (length t - i)) ->
  nj (fun '(r, d') => match r with
        | Some (j, _, _) => i < j /\ room d' (c + (length t - j))
        | None => True end) (parse_step bl t st i prev s d).
Proof.
  intros L Hb R. unfold parse_step.
  eapply nj_bind; [apply nj_get_char|]. intros ch Hc. specialize (Hb ch Hc).
  assert (LI : length t - i = S (length t - S i)) by lia.
  assert (RS : room d (S (c + (length t - S i)))) by (rewrite LI, Nat.add_succ_r in R; exact R).
  destruct (N.eqb_spec ch cLT) as [El|El].
  - eapply nj_bind; [apply nj_is_comment|]. intros [] _.
    { eapply nj_bind; [apply nj_skip_comment|]. intros j A. simpl. split; auto.
      rless. }
    eapply nj_bind; [apply nj_top_tag|]. intros tt _.
    eapply nj_bind; [apply nj_is_end|]. intros [] _.
    { set (x := if _ <? _ then _ else _). destruct x as [pv st'].
      eapply nj_bind; [apply nj_scan|]. intros j (A & _). simpl. split; [lia|].
      rless. }
    cbv zeta. destruct (is_alpha _ || _) eqn:Ea.
    + assert (exists ch', nth_error t (S i) = Some ch' /\ current_char t (S i) = ch') as (ch' & Hc' & E').
      { unfold current_char in *. destruct (nth_error t (S i)); [eauto|]. discriminate. }
      rewrite E' in Ea.
      assert (is_blank ch' = false /\ ch' <> cGT) as [Hb' Hg'].
      { unfold is_blank, is_fmt. split.
        - destruct (N.eqb_spec ch' cSP) as [->|]; [discriminate|].
          destruct (N.eqb_spec ch' cTAB) as [->|]; [discriminate|].
          destruct (N.eqb_spec ch' cNL) as [->|]; [discriminate|].
          destruct (N.eqb_spec ch' cCR) as [->|]; [discriminate|]. reflexivity.
        - intros ->. discriminate. }
      assert (S i < length t) by (apply nth_error_Some; congruence).
      eapply nj_bind; [eapply nj_parse_document_node with (c := c); eauto|].
      { rless. }
      intros [[[[id can] tag] j] d1] (R1 & A).
      assert (R2 : room (update_refs id prev s d1) (c + (length t - j)))
        by (eapply room_caps; [apply caps_update_refs|exact R1]).
      destruct can; [destruct (max_depth <=? length s)|]; simpl; auto; split; auto; lia.
    + eapply nj_bind; [apply nj_parse_text_node with (1 := RS)|].
      intros [[id j] d1] (R1 & A & _). simpl. split; [lia|].
      eapply room_caps; [apply caps_update_refs|]. rless.
  - eapply nj_bind; [apply nj_parse_text_node with (1 := RS)|].
    intros [[id j] d1] (R1 & A & B). specialize (B ch Hc Hb El). simpl. split; [lia|].
    eapply room_caps; [apply caps_update_refs|]. rless.
Qed.

Lemma nj_skip_space_stop t i :
  nj (fun j => i <= j /\ forall c, nth_error t j = Some c -> is_blank c = false) (skip_space t i).
Proof.
  pose proof (safe_skip_space True t i) as H.
  pose proof (nj_skip_space t i) as H'.
  destruct (skip_space t i); simpl in *; auto. tauto.
Qed.

Lemma nj_parse_loop fuel bl t st : forall i prev s d,
  (forall ch, nth_error t i = Some ch -> is_blank ch = false) ->
  room d (length t - i) ->
  nj (fun _ => True) (parse_loop fuel bl t st i prev s d).
Proof.
  induction fuel as [|f IH]; intros i prev s d Hb R; simpl.
  - destruct (_ <? _); simpl; auto.
  - destruct (Nat.ltb_spec i (length t)) as [L|]; simpl; auto.
    eapply nj_bind; [apply nj_parse_step with (c := 0); auto|].
    intros [[[[j pv] s']|] d1] H; simpl; auto. destruct H as (A & R1).
    eapply nj_bind; [apply nj_skip_space_stop|]. intros j2 (B & C).
    apply IH; auto. simpl in *; rless.
Qed.

Lemma nj_parse bl t prev s d :
  room d (length t) -> nj (fun _ => True) (parse bl t prev s d).
Proof.
  intros R. unfold parse. eapply nj_bind; [apply nj_skip_space_stop|]. intros i (A & B).
  apply nj_parse_loop; auto. rless.
Qed.

Lemma nj_create_dom t : (N.of_nat (length t) <= 65533)%N -> nj (fun _ => True) (create_dom t).
Proof.
  intros H. unfold create_dom, parse_root. eapply nj_bind; [apply nj_parse|].
  - unfold room, free; cbn -[N.of_nat]. change (N.of_nat 2) with 2%N. change (N.of_nat 0) with 0%N.
    lia.
  - intros [[] d] _; simpl; auto.
Qed.

(** ** Editing *)
Lemma nj_get_node d i : nj (fun _ => True) (get_node d i).
Proof. unfold get_node. destruct (nth_error _ _); simpl; auto. Qed.
Lemma nj_node_text n : nj (fun _ => True) (node_text n).
Proof. unfold node_text. destruct (n_pay n); simpl; auto. Qed.
Lemma nj_last_next_loop fuel : forall c d, nj (fun _ => True) (last_next_loop fuel c d).
Proof.
  induction fuel; intros c d; simpl; destruct (next_idx c d); simpl; auto.
Qed.
Lemma nj_get_last_next c d : nj (fun _ => True) (get_last_next c d).
Proof. apply nj_last_next_loop. Qed.

Ltac caps := unfold same_caps; simpl; rewrite ?upd_length; auto.

Lemma nj_unlink id d : nj (same_caps d) (unlink_node id d).
Proof.
  unfold unlink_node. eapply nj_bind; [apply nj_get_node|]. intros n _. cbv zeta.
  set (d1 := match prev_idx (n_id n) d with Some _ => _ | None => d end).
  assert (E1 : same_caps d d1).
  { unfold d1. destruct (prev_idx _ d); [destruct (next_idx _ d)|]; caps. }
  clearbody d1. eapply nj_bind with (P := same_caps d1).
  - destruct (parent_idx _ d); [|simpl; apply caps_refl].
    destruct (first_idx _ _); simpl; auto.
    destruct (_ =? _); [|caps]. destruct (next_idx _ d); caps.
  - intros d2 E2. simpl. apply (caps_trans _ _ _ E1). apply (caps_trans _ _ _ E2).
    destruct (next_idx _ d); caps.
Qed.
Lemma nj_remove_f fuel : (forall id d, nj (same_caps d) (remove_node_f fuel id d)) /\
  (forall id d, nj (same_caps d) (remove_children_f fuel id d)).
Proof.
  induction fuel as [|f [IH1 IH2]]; split; intros id d; simpl; auto.
  - eapply nj_bind; [apply IH2|]. intros d1 E1. eapply nj_imp; [apply nj_unlink|].
    intros d2 E2. eapply caps_trans; eauto.
  - destruct (0 <? _); simpl; [|apply caps_refl].
    eapply nj_bind; [apply IH1|]. intros d1 E1. eapply nj_imp; [apply IH2|].
    intros d2 E2. eapply caps_trans; eauto.
Qed.
Lemma nj_remove_node id d : nj (same_caps d) (remove_node id d).
Proof. apply nj_remove_f. Qed.
Lemma nj_remove_children id d : nj (same_caps d) (remove_children id d).
Proof. apply nj_remove_f. Qed.

Lemma nj_try_merge t s a d : nj (fun '(_, d') => same_caps d d') (try_merge t s a d).
Proof.
  unfold try_merge. eapply nj_bind; [apply nj_get_node|]. intros n _.
  destruct (is_text n); [|simpl; apply caps_refl].
  eapply nj_bind; [apply nj_get_node|]. intros m _.
  eapply nj_bind; [apply nj_node_text|]. intros tx _.
  eapply nj_bind with (P := same_caps d); [|intros; simpl; auto].
  unfold add_text_to_text_node. eapply nj_bind; [apply nj_get_node|]. intros m' _.
  eapply nj_bind; [apply nj_node_text|]. intros tx' _. apply nj_set_pay.
Qed.
Lemma nj_connect fuel : forall p c d, nj (same_caps d) (connect_others_loop fuel p c d).
Proof.
  induction fuel; intros p c d; simpl; destruct (0 <? c); simpl; auto; try apply caps_refl.
  eapply nj_imp; [apply IHfuel|]. intros d2 E. eapply caps_trans; [|exact E]. caps.
Qed.
Lemma nj_append_refs p x d : nj (same_caps d) (append_refs p x d).
Proof.
  unfold append_refs, connect_others. destruct (first_idx p d).
  - eapply nj_bind; [apply nj_get_last_next|]. intros l _. cbv zeta.
    eapply nj_imp; [apply nj_connect|]. intros d2 E. eapply caps_trans; [|exact E]. caps.
  - cbv zeta. eapply nj_imp; [apply nj_connect|]. intros d2 E. eapply caps_trans; [|exact E]. caps.
Qed.
Lemma nj_prepend_refs p x d : nj (same_caps d) (prepend_refs p x d).
Proof.
  unfold prepend_refs, connect_others. destruct (first_idx p d).
  - cbv zeta. eapply nj_bind; [apply nj_get_last_next|]. intros l _.
    eapply nj_imp; [apply nj_connect|]. intros d2 E. eapply caps_trans; [|exact E]. caps.
  - cbv zeta. eapply nj_imp; [apply nj_connect|]. intros d2 E. eapply caps_trans; [|exact E]. caps.
Qed.
Lemma nj_replace_refs o x d : nj (same_caps d) (replace_refs o x d).
Proof.
  unfold replace_refs, replace_others. eapply nj_bind; [apply nj_get_node|]. intros n _.
  eapply nj_bind; [apply nj_get_last_next|]. intros l _. cbv zeta.
  set (d1 := match prev_idx o d with Some _ => _ | None => _ end).
  assert (E1 : same_caps d d1).
  { unfold d1. destruct (prev_idx o d); [caps|].
    destruct (parent_idx o d) as [i|]; [destruct (first_idx _ d)|]; caps. }
  clearbody d1. eapply nj_bind with (P := same_caps d1).
  - destruct (parent_idx o d); [|simpl; apply caps_refl].
    eapply nj_imp; [apply nj_connect|]. intros d2 E. eapply caps_trans; [|exact E]. caps.
  - intros d2 E2. simpl. apply (caps_trans _ _ _ E1). apply (caps_trans _ _ _ E2).
    destruct (next_idx o d); caps.
Qed.

Definition any {A} : A -> Prop := fun _ => True.
Ltac j0 :=
  match goal with
  | |- nj _ (bind (if _ then _ else _) _) => idtac
  | |- nj _ (bind _ _) => eapply nj_bind with (P := any); [|intros ? _]
  end.

Lemma nj_any {A} (P : A -> Prop) x : nj P x -> nj any x.
Proof. intros; eapply nj_imp; eauto. intros; exact I. Qed.
Lemma nj_tm t s a d : nj any (try_merge t s a d).
Proof. eapply nj_any, nj_try_merge. Qed.
Lemma nj_rm id d : nj any (remove_node id d).
Proof. eapply nj_any, nj_remove_node. Qed.
Lemma nj_ar p x d : nj any (append_refs p x d).
Proof. eapply nj_any, nj_append_refs. Qed.
Lemma nj_pr p x d : nj any (prepend_refs p x d).
Proof. eapply nj_any, nj_prepend_refs. Qed.
Lemma nj_rr p x d : nj any (replace_refs p x d).
Proof. eapply nj_any, nj_replace_refs. Qed.
Lemma nj_gl c d : nj any (get_last_next c d).
Proof. eapply nj_any, nj_get_last_next. Qed.
Lemma nj_gn c d : nj any (get_node c d).
Proof. eapply nj_any, nj_get_node. Qed.
Lemma nj_ok {A} (a : A) : nj any (Ok a).
Proof. exact I. Qed.
Global Hint Resolve nj_tm nj_rm nj_ar nj_pr nj_rr nj_gl nj_gn nj_ok : njdb.

(** Strategy for straight-line code whose pieces never jump. *)
Ltac nj_go :=
  repeat (cbv zeta; match goal with
  | |- nj any (bind ?x _) =>
      eapply nj_bind with (P := any); [|intros ? _]
  | |- nj any (let '(_, _) := ?p in _) => destruct p
  | |- nj any (if ?b then _ else _) => destruct b
  | |- nj any (match ?b with Some _ => _ | None => _ end) => destruct b
  | |- nj any (Undef _) => exact I
  | |- _ => solve [auto with njdb]
  end).

Lemma nj_try_both o x d : nj any (try_merge_both o x d).
Proof. unfold try_merge_both. nj_go. Qed.
Global Hint Resolve nj_try_both : njdb.

(** Once the fragment is parsed nothing jumps. *)
Lemma nj_append_html bl p h d r : parse_extra bl h d = Ok r -> nj any (append_html bl p h d).
Proof. intros E. unfold append_html. rewrite E. cbn [bind]. nj_go. Qed.
Lemma nj_prepend_html bl p h d r : parse_extra bl h d = Ok r -> nj any (prepend_html bl p h d).
Proof. intros E. unfold prepend_html. rewrite E. cbn [bind]. nj_go. Qed.
Lemma nj_replace_html bl p h d r : parse_extra bl h d = Ok r -> nj any (replace_with_html bl p h d).
Proof. intros E. unfold replace_with_html. rewrite E. cbn [bind]. nj_go. Qed.

Lemma nj_after_parse {A} bl h d (f : outcome A) :
  room d (length h) ->
  (forall r, parse_extra bl h d = Ok r -> nj any f) ->
  (forall j, parse_extra bl h d <> Longjmp j) /\ 
  ((exists r, parse_extra bl h d = Ok r) -> nj any f).
Proof.
  intros R H. split.
  - intros j. eapply nj_no, nj_parse; eauto.
  - intros [r E]. eauto.
Qed.

Lemma nj_html {A} bl h d (g : bool * dom -> outcome A) :
  room d (length h) ->
  (forall r, parse_extra bl h d = Ok r -> nj any (bind (parse_extra bl h d) g)) ->
  nj any (bind (parse_extra bl h d) g).
Proof.
  intros R H. pose proof (nj_parse bl h 0 [] d R) as P. fold (parse_extra bl h d) in P.
  destruct (parse_extra bl h d) as [r|u|j|] eqn:E; simpl; auto. apply (H r). reflexivity.
Qed.

Lemma nj_text_element s d c : room d (S c) ->
  nj (fun '(_, d') => room d' c) (parse_text_element s d).
Proof.
  intros R. unfold parse_text_element. eapply nj_bind; [apply nj_create_node; eauto|].
  intros [id d1] (R1 & _). eapply nj_bind; [apply nj_set_pay|]. intros d2 E. simpl.
  eapply room_caps; eauto.
Qed.
Lemma nj_add_bools id l : forall d c, room d (length l + c) -> nj (fun d' => room d' c) (add_bools id l d).
Proof.
  induction l as [|b l IH]; intros d c R; simpl in *; auto.
  eapply nj_bind; [apply nj_add_bool; eauto|]. intros d1 R1. auto.
Qed.
Lemma nj_add_props id l : forall d c, room d (length l + c) -> nj (fun d' => room d' c) (add_props id l d).
Proof.
  induction l as [|[k v] l IH]; intros d c R; simpl in *; auto.
  eapply nj_bind; [apply nj_add_property; eauto|]. intros d1 R1. auto.
Qed.
Lemma nj_document_element e d :
  room d (2 + length (dn_bools e) + length (dn_props e)) -> nj any (parse_document_element e d).
Proof.
  intros R. unfold parse_document_element.
  eapply nj_bind; [apply nj_create_node with (1 := R)|]. intros [id d1] (R1 & _).
  eapply nj_bind; [apply nj_set_tag with (1 := R1)|]. intros d2 R2.
  eapply nj_bind; [apply nj_add_bools with (1 := R2)|]. intros d3 R3.
  eapply nj_bind; [apply nj_add_props with (c := 0); rewrite Nat.add_0_r; exact R3|].
  intros; exact I.
Qed.

Lemma nj_run bl o d : room d (op_cost o) -> nj any (run bl o d).
Proof.
  intros R. destruct o; simpl in R |- *; unfold append_document_node, prepend_document_node,
    replace_with_document_node, append_text_node, prepend_text_node, replace_with_text_node,
    set_text_content, set_property_value, remove_bool_property, remove_property.
  - rewrite bind_assoc. eapply nj_bind; [apply nj_document_element; exact R|]. intros [x d1] _. nj_go.
  - rewrite bind_assoc. eapply nj_bind; [apply nj_text_element; exact R|]. intros [x d1] _. nj_go.
  - unfold append_html. cbv zeta. rewrite bind_assoc. apply nj_html; auto.
    intros r E. rewrite E. cbn [bind]. nj_go.
  - rewrite bind_assoc. eapply nj_bind; [apply nj_document_element; exact R|]. intros [x d1] _. nj_go.
  - rewrite bind_assoc. eapply nj_bind; [apply nj_text_element; exact R|]. intros [x d1] _. nj_go.
  - unfold prepend_html. cbv zeta. rewrite bind_assoc. apply nj_html; auto.
    intros r E. rewrite E. cbn [bind]. nj_go.
  - rewrite bind_assoc. eapply nj_bind; [apply nj_document_element; exact R|]. intros [x d1] _. nj_go.
  - rewrite bind_assoc. eapply nj_bind; [apply nj_text_element; exact R|]. intros [x d1] _. nj_go.
  - unfold replace_with_html. cbv zeta. rewrite bind_assoc. apply nj_html; auto.
    intros r E. rewrite E. cbn [bind]. nj_go.
  - apply nj_rm.
  - eapply nj_any, nj_remove_children.
  - eapply nj_bind; [apply nj_remove_children|]. intros d1 E.
    eapply nj_bind; [apply nj_text_element with (c := 0); eapply room_caps; eauto|].
    intros [x d2] _. exact I.
  - eapply nj_any, nj_add_bool with (c := 0); exact R.
  - eapply nj_any, nj_add_property with (c := 0); exact R.
  - eapply nj_bind; [apply nj_map_contains|]. intros bid _. nj_go.
  - eapply nj_bind; [apply nj_map_contains|]. intros bid _. nj_go.
  - rewrite bind_assoc. eapply nj_bind; [apply nj_map_contains|]. intros kid _.
    destruct (kid =? 0); [exact I|]. destruct (prop_idx n kid d); [|exact I].
    unfold intern_val. rewrite !bind_assoc.
    eapply nj_bind; [apply nj_map_insert with (c := 0); apply R|].
    intros [[ins vid] m] _. cbn [bind]. simpl. destruct (nth_error (props d) n0); exact I.
  - unfold add_text_to_text_node. eapply nj_bind; [apply nj_get_node|]. intros x _.
    eapply nj_bind; [apply nj_node_text|]. intros y _. eapply nj_any, nj_set_pay.
  - eapply nj_any, nj_set_tag with (c := 0); exact R.
Qed.

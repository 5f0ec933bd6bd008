(** * Every call only adds: registries are extended, node ids stay valid, and the
    16-bit bounds are kept. *)
From Coq Require Import List NArith Arith Bool Lia.
From Verif Require Import Base TrieModel DomModel ParserModel EditModel ReadModel
     DomSpec ApiSpec Lemmas TrieProofs RegProofs.
Import ListNotations.
Local Open Scope nat_scope.

Definition okq {A} (Q : A -> Prop) (o : outcome A) : Prop :=
  match o with Ok a => Q a | _ => True end.
Lemma okq_bind {A B} (P : A -> Prop) (Q : B -> Prop) x f :
  okq P x -> (forall a, P a -> okq Q (f a)) -> okq Q (bind x f).
Proof. destruct x; simpl; auto. Qed.
Lemma okq_imp {A} (P Q : A -> Prop) x : okq P x -> (forall a, P a -> Q a) -> okq Q x.
Proof. destruct x; simpl; auto. Qed.
Lemma okq_any {A} (x : outcome A) : okq (fun _ => True) x.
Proof. destruct x; exact I. Qed.

Definition small (d : dom) : Prop :=
  (N.of_nat (length (nodes d)) <= 65535)%N /\ (N.of_nat (mident (tag_map d)) <= 65535)%N /\
  (N.of_nat (mident (bool_map d)) <= 65535)%N /\ (N.of_nat (mident (key_map d)) <= 65535)%N /\
  (N.of_nat (mident (val_map d)) <= 65535)%N.

Definition grows (d d' : dom) : Prop :=
  regs_ext d d' /\ length (nodes d) <= length (nodes d') /\ (small d -> small d').

Lemma grows_refl d : grows d d.
Proof. split; [apply regs_ext_refl|auto]. Qed.
Lemma grows_trans a b c : grows a b -> grows b c -> grows a c.
Proof.
  intros (A1 & A2 & A3) (B1 & B2 & B3). split; [eapply regs_ext_trans; eauto|]. split; [lia|auto].
Qed.

(** Changes of tables and of nodes in place. *)
Definition same_regs (d d' : dom) : Prop :=
  length (nodes d') = length (nodes d) /\ tag_reg d' = tag_reg d /\ bool_reg d' = bool_reg d /\
  key_reg d' = key_reg d /\ val_reg d' = val_reg d /\ tag_map d' = tag_map d /\
  bool_map d' = bool_map d /\ key_map d' = key_map d /\ val_map d' = val_map d.
Lemma same_regs_grows d d' : same_regs d d' -> grows d d'.
Proof.
  intros (H1 & H2 & H3 & H4 & H5 & H6 & H7 & H8 & H9). unfold grows, regs_ext, small.
  rewrite H1, H2, H3, H4, H5, H6, H7, H8, H9.
  split; [repeat split; exists []; now rewrite app_nil_r|]. split; auto.
Qed.
Ltac same := apply same_regs_grows; unfold same_regs; simpl; rewrite ?upd_length; auto 12.

Lemma okq_map_insert s m :
  okq (fun '(ins, id, m') => (N.of_nat (mident m) <= 65535 -> N.of_nat (mident m') <= 65535)%N)
      (map_insert s m).
Proof.
  unfold map_insert, map_insert_m. eapply okq_bind; [apply okq_any|]. intros [|v] _; simpl; auto.
  destruct (N.eqb_spec (N.of_nat (mident m)) 65535); simpl; auto.
  eapply okq_bind; [apply okq_any|]. intros r _. cbn. lia.
Qed.

Lemma ext_if {A} (b : bool) (l : list A) x : exists y, (if b then l ++ x else l) = l ++ y.
Proof. destruct b; [eauto|]. exists []. now rewrite app_nil_r. Qed.
Lemma ext0 {A} (l : list A) : exists y, l = l ++ y.
Proof. exists []. now rewrite app_nil_r. Qed.
Global Hint Resolve ext_if ext0 : grow.

Lemma g_create ty d : okq (fun '(id, d') => grows d d') (create_node ty d).
Proof.
  unfold create_node. destruct (N.leb_spec (N.of_nat (length (nodes d))) 65534); simpl; auto.
  unfold grows, regs_ext, small. simpl. rewrite app_length. simpl.
  split; [auto with grow|]. split; [lia|]. intuition lia.
Qed.
Lemma g_set_pay d i p : okq (grows d) (set_pay d i p).
Proof. unfold set_pay, get_node. destruct (nth_error (nodes d) i); simpl; auto. same. Qed.
Lemma g_intern_key s d : okq (fun '(_, d') => grows d d') (intern_key s d).
Proof.
  unfold intern_key. eapply okq_bind; [apply okq_map_insert|]. intros [[ins id] m] H. simpl.
  unfold grows, regs_ext, small; simpl. split; [auto with grow|]. intuition.
Qed.
Lemma g_intern_val s d : okq (fun '(_, d') => grows d d') (intern_val s d).
Proof.
  unfold intern_val. eapply okq_bind; [apply okq_map_insert|]. intros [[ins id] m] H. simpl.
  unfold grows, regs_ext, small; simpl. split; [auto with grow|]. intuition.
Qed.
Lemma g_intern_bool s d : okq (fun '(_, d') => grows d d') (intern_bool s d).
Proof.
  unfold intern_bool. eapply okq_bind; [apply okq_map_insert|]. intros [[ins id] m] H. simpl.
  unfold grows, regs_ext, small; simpl. split; [auto with grow|]. intuition.
Qed.
Lemma g_add_property id k v d : okq (grows d) (add_property id k v d).
Proof.
  unfold add_property. eapply okq_bind; [apply g_intern_key|]. intros [kid d1] H1.
  eapply okq_bind; [apply g_intern_val|]. intros [vid d2] H2. simpl.
  eapply grows_trans; [exact H1|]. eapply grows_trans; [exact H2|]. same.
Qed.
Lemma g_add_bool id b d : okq (grows d) (add_bool_property id b d).
Proof.
  unfold add_bool_property. eapply okq_bind; [apply g_intern_bool|]. intros [bid d1] H1. simpl.
  eapply grows_trans; [exact H1|]. same.
Qed.
Lemma g_set_tag tag id p d : okq (grows d) (set_tag tag id p d).
Proof.
  unfold set_tag. eapply okq_bind; [apply okq_map_insert|]. intros [[ins tid] m] H. cbv zeta.
  eapply okq_imp; [apply g_set_pay|]. intros d' G. eapply grows_trans; [|exact G].
  unfold grows, regs_ext, small; simpl. split; [auto with grow|]. intuition.
Qed.

(** ** The parser *)
Lemma g_text_node t i tag d : okq (fun '(_, _, d') => grows d d') (parse_text_node t i tag d).
Proof.
  unfold parse_text_node. eapply okq_bind; [apply g_create|]. intros [id d1] H1.
  eapply okq_bind; [apply okq_any|]. intros [raw j] _.
  eapply okq_bind; [apply g_set_pay|]. intros d2 H2. simpl. eapply grows_trans; eauto.
Qed.
Lemma g_attr_loop fuel t id : forall can i d,
  okq (fun '(_, _, d') => grows d d') (attr_loop fuel t id can i d).
Proof.
  induction fuel as [|f IH]; intros can i d; simpl; destruct (_ <? _);
    try (simpl; apply grows_refl).
  - eapply okq_bind; [apply okq_any|]. intros c _. destruct (_ =? _)%N; simpl; auto. apply grows_refl.
  - eapply okq_bind; [apply okq_any|]. intros c _. destruct (_ =? _)%N; [simpl; apply grows_refl|].
    eapply okq_bind with (P := fun '(_, _, d') => grows d d').
    + destruct (_ =? _)%N; [simpl; apply grows_refl|].
      destruct (negb _); [|simpl; apply grows_refl].
      eapply okq_bind; [apply okq_any|]. intros [key j] _. destruct (_ =? _)%N.
      * eapply okq_bind; [apply okq_any|]. intros [v j2] _.
        eapply okq_bind; [apply g_add_property|]. intros d1 H. exact H.
      * eapply okq_bind; [apply g_add_bool|]. intros d1 H. exact H.
    + intros [[can' i'] d'] H. eapply okq_bind; [apply okq_any|]. intros i'' _.
      eapply okq_imp; [apply IH|]. intros [[a b] d2] H2. eapply grows_trans; eauto.
Qed.
Lemma g_document_node t i ex d :
  okq (fun '(_, _, _, _, d') => grows d d') (parse_document_node t i ex d).
Proof.
  unfold parse_document_node. eapply okq_bind; [apply g_create|]. intros [id d1] H1.
  eapply okq_bind; [apply okq_any|]. intros j _. cbv zeta.
  eapply okq_bind; [apply okq_any|]. intros sl _.
  eapply okq_bind; [apply okq_any|]. intros [can size] _.
  eapply okq_bind; [apply okq_any|]. intros tag _.
  eapply okq_bind; [apply okq_any|]. intros j2 _.
  eapply okq_bind; [apply g_attr_loop|]. intros [[can2 j3] d2] H2.
  eapply okq_bind; [apply g_set_tag|]. intros d3 H3. simpl.
  eapply grows_trans; [exact H1|]. eapply grows_trans; [exact H2|exact H3].
Qed.
Lemma g_update_refs n p s d : grows d (update_refs n p s d).
Proof.
  unfold update_refs. destruct (_ && _); [|apply grows_refl].
  destruct s as [|[q tg] s]; [same|]. destruct (_ =? _); same.
Qed.
Lemma g_step bl t st i prev s d : okq (fun '(_, d') => grows d d') (parse_step bl t st i prev s d).
Proof.
  unfold parse_step. eapply okq_bind; [apply okq_any|]. intros c _.
  destruct (_ =? _)%N.
  - eapply okq_bind; [apply okq_any|]. intros [] _.
    { eapply okq_bind; [apply okq_any|]. intros j _. simpl. apply grows_refl. }
    eapply okq_bind; [apply okq_any|]. intros tt _.
    eapply okq_bind; [apply okq_any|]. intros [] _.
    { set (x := if _ <? _ then _ else _). destruct x as [pv st'].
      eapply okq_bind; [apply okq_any|]. intros j _. simpl. apply grows_refl. }
    cbv zeta. destruct (_ || _).
    + eapply okq_bind; [apply g_document_node|]. intros [[[[id can] tag] j] d1] H.
      assert (G : grows d (update_refs id prev s d1))
        by (eapply grows_trans; [exact H|apply g_update_refs]).
      destruct can; [destruct (_ <=? _)|]; exact G.
    + eapply okq_bind; [apply g_text_node|]. intros [[id j] d1] H. simpl.
      eapply grows_trans; [exact H|apply g_update_refs].
  - eapply okq_bind; [apply g_text_node|]. intros [[id j] d1] H. simpl.
    eapply grows_trans; [exact H|apply g_update_refs].
Qed.
Lemma g_loop fuel bl t st : forall i prev s d,
  okq (fun '(_, d') => grows d d') (parse_loop fuel bl t st i prev s d).
Proof.
  induction fuel as [|f IH]; intros i prev s d; simpl; destruct (_ <? _);
    try (simpl; auto using grows_refl; fail).
  eapply okq_bind; [apply g_step|]. intros [[[[j pv] s']|] d1] H; [|exact H].
  eapply okq_bind; [apply okq_any|]. intros j2 _. eapply okq_imp; [apply IH|].
  intros [b d2] H2. eapply grows_trans; eauto.
Qed.
Lemma g_parse bl t prev s d : okq (fun '(_, d') => grows d d') (parse bl t prev s d).
Proof. unfold parse. eapply okq_bind; [apply okq_any|]. intros i _. apply g_loop. Qed.
Lemma g_parse_extra bl t d : okq (fun '(_, d') => grows d d') (parse_extra bl t d).
Proof. apply g_parse. Qed.

(** ** Editing *)
Lemma g_unlink id d : okq (grows d) (unlink_node id d).
Proof.
  unfold unlink_node. eapply okq_bind; [apply okq_any|]. intros n _. cbv zeta.
  set (d1 := match prev_idx (n_id n) d with Some _ => _ | None => d end).
  assert (E1 : grows d d1).
  { unfold d1. destruct (prev_idx _ d); [destruct (next_idx _ d)|]; same. }
  clearbody d1. eapply okq_bind with (P := grows d1).
  - destruct (parent_idx _ d); simpl; [|apply grows_refl].
    destruct (first_idx _ _); simpl; auto.
    destruct (_ =? _); [|simpl; same]. destruct (next_idx _ d); simpl; same.
  - intros d2 E2. simpl. apply (grows_trans _ _ _ E1). apply (grows_trans _ _ _ E2).
    destruct (next_idx _ d); same.
Qed.
Lemma g_remove_f fuel : (forall id d, okq (grows d) (remove_node_f fuel id d)) /\
  (forall id d, okq (grows d) (remove_children_f fuel id d)).
Proof.
  induction fuel as [|f [IH1 IH2]]; split; intros id d; simpl; auto.
  - eapply okq_bind; [apply IH2|]. intros d1 E1. eapply okq_imp; [apply g_unlink|].
    intros d2 E2. eapply grows_trans; eauto.
  - destruct (0 <? _); simpl; [|apply grows_refl].
    eapply okq_bind; [apply IH1|]. intros d1 E1. eapply okq_imp; [apply IH2|].
    intros d2 E2. eapply grows_trans; eauto.
Qed.
Lemma g_remove_node id d : okq (grows d) (remove_node id d).
Proof. apply g_remove_f. Qed.
Lemma g_remove_children id d : okq (grows d) (remove_children id d).
Proof. apply g_remove_f. Qed.
Lemma g_try_merge t s a d : okq (fun '(_, d') => grows d d') (try_merge t s a d).
Proof.
  unfold try_merge. eapply okq_bind; [apply okq_any|]. intros n _.
  destruct (is_text n); [|simpl; apply grows_refl].
  eapply okq_bind; [apply okq_any|]. intros m _.
  eapply okq_bind; [apply okq_any|]. intros tx _.
  eapply okq_bind with (P := grows d); [|intros; simpl; auto].
  unfold add_text_to_text_node. eapply okq_bind; [apply okq_any|]. intros m' _.
  eapply okq_bind; [apply okq_any|]. intros tx' _. apply g_set_pay.
Qed.
Lemma g_connect fuel : forall p c d, okq (grows d) (connect_others_loop fuel p c d).
Proof.
  induction fuel; intros p c d; simpl; destruct (0 <? c); simpl; auto; try apply grows_refl.
  eapply okq_imp; [apply IHfuel|]. intros d2 E. eapply grows_trans; [|exact E]. same.
Qed.
Lemma g_append_refs p x d : okq (grows d) (append_refs p x d).
Proof.
  unfold append_refs, connect_others. destruct (first_idx p d).
  - eapply okq_bind; [apply okq_any|]. intros l _. cbv zeta.
    eapply okq_imp; [apply g_connect|]. intros d2 E. eapply grows_trans; [|exact E]. same.
  - cbv zeta. eapply okq_imp; [apply g_connect|]. intros d2 E. eapply grows_trans; [|exact E]. same.
Qed.
Lemma g_prepend_refs p x d : okq (grows d) (prepend_refs p x d).
Proof.
  unfold prepend_refs, connect_others. destruct (first_idx p d).
  - cbv zeta. eapply okq_bind; [apply okq_any|]. intros l _.
    eapply okq_imp; [apply g_connect|]. intros d2 E. eapply grows_trans; [|exact E]. same.
  - cbv zeta. eapply okq_imp; [apply g_connect|]. intros d2 E. eapply grows_trans; [|exact E]. same.
Qed.
Lemma g_replace_refs o x d : okq (grows d) (replace_refs o x d).
Proof.
  unfold replace_refs, replace_others. eapply okq_bind; [apply okq_any|]. intros n _.
  eapply okq_bind; [apply okq_any|]. intros l _. cbv zeta.
  set (d1 := match prev_idx o d with Some _ => _ | None => _ end).
  assert (E1 : grows d d1).
  { unfold d1. destruct (prev_idx o d); [same|].
    destruct (parent_idx o d) as [i|]; [destruct (first_idx _ d)|]; same. }
  clearbody d1. eapply okq_bind with (P := grows d1).
  - destruct (parent_idx o d); [|apply grows_refl].
    eapply okq_imp; [apply g_connect|]. intros d2 E. eapply grows_trans; [|exact E]. same.
  - intros d2 E2. simpl. apply (grows_trans _ _ _ E1). apply (grows_trans _ _ _ E2).
    destruct (next_idx o d); same.
Qed.
Lemma g_text_element s d : okq (fun '(_, d') => grows d d') (parse_text_element s d).
Proof.
  unfold parse_text_element. eapply okq_bind; [apply g_create|]. intros [id d1] H.
  eapply okq_bind; [apply g_set_pay|]. intros d2 E. simpl. eapply grows_trans; eauto.
Qed.
Lemma g_add_bools id l : forall d, okq (grows d) (add_bools id l d).
Proof.
  induction l as [|b l IH]; intros d; simpl; [apply grows_refl|].
  eapply okq_bind; [apply g_add_bool|]. intros d1 H. eapply okq_imp; [apply IH|].
  intros d2 H2. eapply grows_trans; eauto.
Qed.
Lemma g_add_props id l : forall d, okq (grows d) (add_props id l d).
Proof.
  induction l as [|[k v] l IH]; intros d; simpl; [apply grows_refl|].
  eapply okq_bind; [apply g_add_property|]. intros d1 H. eapply okq_imp; [apply IH|].
  intros d2 H2. eapply grows_trans; eauto.
Qed.
Lemma g_document_element e d : okq (fun '(_, d') => grows d d') (parse_document_element e d).
Proof.
  unfold parse_document_element. eapply okq_bind; [apply g_create|]. intros [id d1] H1.
  eapply okq_bind; [apply g_set_tag|]. intros d2 H2.
  eapply okq_bind; [apply g_add_bools|]. intros d3 H3.
  eapply okq_bind; [apply g_add_props|]. intros d4 H4. simpl.
  eapply grows_trans; [exact H1|]. eapply grows_trans; [exact H2|].
  eapply grows_trans; [exact H3|exact H4].
Qed.
Lemma g_try_both o x d : okq (fun '(_, d') => grows d d') (try_merge_both o x d).
Proof.
  unfold try_merge_both. eapply okq_bind; [apply okq_any|]. intros n _.
  destruct (is_text n); [|simpl; apply grows_refl].
  assert (N : forall d0, grows d d0 -> okq (fun '(_, d') => grows d d')
     match next_idx o d0 with
     | Some j => try_merge (snd (at_idx (nexts d0) j)) (n_id n) false d0
     | None => Ok (false, d0) end).
  { intros d0 G0. destruct (next_idx o d0); [|exact G0].
    eapply okq_imp; [apply g_try_merge|]. intros [b d1] H. eapply grows_trans; eauto. }
  cbv zeta. destruct (prev_idx o d).
  - eapply okq_bind; [apply g_try_merge|]. intros [[] d1] H; [exact H|]. apply N. exact H.
  - apply N, grows_refl.
Qed.

(** Straight-line code made of growing pieces. *)
Definition gs (d : dom) {A} (x : A * dom) : Prop := grows d (snd x).
Lemma gs_try d t s a d0 : grows d d0 -> okq (gs d) (try_merge t s a d0).
Proof. intros. eapply okq_imp; [apply g_try_merge|]. intros [b d1] E. eapply grows_trans; eauto. Qed.
Lemma gs_both d o x d0 : grows d d0 -> okq (gs d) (try_merge_both o x d0).
Proof. intros. eapply okq_imp; [apply g_try_both|]. intros [b d1] E. eapply grows_trans; eauto. Qed.
Lemma gr_remove d id d0 : grows d d0 -> okq (grows d) (remove_node id d0).
Proof. intros. eapply okq_imp; [apply g_remove_node|]. intros d1 E. eapply grows_trans; eauto. Qed.
Lemma gr_append d p x d0 : grows d d0 -> okq (grows d) (append_refs p x d0).
Proof. intros. eapply okq_imp; [apply g_append_refs|]. intros d1 E. eapply grows_trans; eauto. Qed.
Lemma gr_prepend d p x d0 : grows d d0 -> okq (grows d) (prepend_refs p x d0).
Proof. intros. eapply okq_imp; [apply g_prepend_refs|]. intros d1 E. eapply grows_trans; eauto. Qed.
Lemma gr_replace d p x d0 : grows d d0 -> okq (grows d) (replace_refs p x d0).
Proof. intros. eapply okq_imp; [apply g_replace_refs|]. intros d1 E. eapply grows_trans; eauto. Qed.

Ltac g_go :=
  repeat (cbv zeta; cbv beta in *; match goal with
  | |- okq _ (bind (try_merge _ _ _ ?d0) _) =>
      eapply okq_bind; [apply gs_try; eassumption|]; intros [? ?] ?; unfold gs in *; cbn [snd] in *
  | |- okq _ (bind (try_merge_both _ _ ?d0) _) =>
      eapply okq_bind; [apply gs_both; eassumption|]; intros [? ?] ?; unfold gs in *; cbn [snd] in *
  | |- okq _ (bind (remove_node _ _) _) =>
      eapply okq_bind; [apply gr_remove; eassumption|]; intros ? ?
  | |- okq _ (bind (append_refs _ _ _) _) =>
      eapply okq_bind; [apply gr_append; eassumption|]; intros ? ?
  | |- okq _ (bind (prepend_refs _ _ _) _) =>
      eapply okq_bind; [apply gr_prepend; eassumption|]; intros ? ?
  | |- okq _ (bind (replace_refs _ _ _) _) =>
      eapply okq_bind; [apply gr_replace; eassumption|]; intros ? ?
  | |- okq _ (bind (get_last_next _ _) _) => eapply okq_bind; [apply okq_any|]; intros ? _
  | |- okq _ (bind (get_node _ _) _) => eapply okq_bind; [apply okq_any|]; intros ? _
  | |- okq _ (remove_node _ _) => apply gr_remove; eassumption
  | |- okq _ (if ?b then _ else _) => destruct b
  | |- okq _ (match ?b with Some _ => _ | None => _ end) => destruct b
  | |- okq _ (Ok _) => unfold gs; cbn [okq snd]; assumption
  | |- okq _ (Undef _) => exact I
  end).

Lemma g_append_html bl p h d : okq (gs d) (append_html bl p h d).
Proof.
  unfold append_html. cbv zeta. eapply okq_bind; [apply g_parse_extra|]. intros [ok d1] H. g_go.
Qed.
Lemma g_prepend_html bl p h d : okq (gs d) (prepend_html bl p h d).
Proof.
  unfold prepend_html. cbv zeta. eapply okq_bind; [apply g_parse_extra|]. intros [ok d1] H. g_go.
Qed.
Lemma g_replace_html bl p h d : okq (gs d) (replace_with_html bl p h d).
Proof.
  unfold replace_with_html. cbv zeta. eapply okq_bind; [apply g_parse_extra|]. intros [ok d1] H.
  destruct (negb ok); [exact H|]. eapply okq_bind; [apply okq_any|]. intros ln _.
  destruct (_ <? ln).
  - eapply okq_bind; [apply okq_any|]. intros n _.
    eapply okq_bind with (P := gs d).
    { g_go. }
    intros [fn d2] H2. unfold gs in H2; cbn [snd] in H2.
    eapply okq_bind; [apply okq_any|]. intros n2 _.
    eapply okq_bind with (P := grows d).
    { g_go. }
    intros d3 H3. g_go.
  - g_go.
Qed.

Lemma g_run bl o d : okq (grows d) (run bl o d).
Proof.
  assert (W : forall A (x : outcome (A * dom)), okq (gs d) x -> okq (grows d) (let* '(_, d') := x in Ok d')).
  { intros A x H. eapply okq_bind; [exact H|]. intros [a d1] E. exact E. }
  destruct o; simpl; try apply W.
  - unfold append_document_node. eapply okq_bind; [apply g_document_element|]. intros [x d1] H. g_go.
  - unfold append_text_node. eapply okq_bind; [apply g_text_element|]. intros [x d1] H. g_go.
  - apply g_append_html.
  - unfold prepend_document_node. eapply okq_bind; [apply g_document_element|]. intros [x d1] H. g_go.
  - unfold prepend_text_node. eapply okq_bind; [apply g_text_element|]. intros [x d1] H. g_go.
  - apply g_prepend_html.
  - unfold replace_with_document_node. eapply okq_bind; [apply g_document_element|]. intros [x d1] H. g_go.
  - unfold replace_with_text_node. eapply okq_bind; [apply g_text_element|]. intros [x d1] H. g_go.
  - apply g_replace_html.
  - apply g_remove_node.
  - apply g_remove_children.
  - unfold set_text_content. eapply okq_bind; [apply g_remove_children|]. intros d1 H1.
    eapply okq_bind; [apply g_text_element|]. intros [x d2] H2. simpl.
    eapply grows_trans; [exact H1|]. eapply grows_trans; [exact H2|]. same.
  - apply g_add_bool.
  - apply g_add_property.
  - unfold remove_bool_property. eapply okq_bind; [apply okq_any|]. intros bid _.
    destruct (0 <? bid); [|simpl; apply grows_refl]. destruct (bprop_idx _ _ _); simpl; same.
  - unfold remove_property. eapply okq_bind; [apply okq_any|]. intros bid _.
    destruct (0 <? bid); [|simpl; apply grows_refl]. destruct (prop_idx _ _ _); simpl; same.
  - unfold set_property_value. eapply okq_bind; [apply okq_any|]. intros kid _.
    destruct (kid =? 0); [simpl; apply grows_refl|].
    destruct (prop_idx _ _ _); [|simpl; apply grows_refl].
    eapply okq_bind; [apply g_intern_val|]. intros [vid d1] H.
    destruct (nth_error (props d1) _); simpl; auto.
  - unfold add_text_to_text_node. eapply okq_bind; [apply okq_any|]. intros x _.
    eapply okq_bind; [apply okq_any|]. intros y _. apply g_set_pay.
  - apply g_set_tag.
Qed.

Lemma small_empty : small empty_dom.
Proof. unfold small; simpl. repeat split; discriminate || (intros H; discriminate H). Qed.

Lemma reachable_small d : reachable d -> small d.
Proof.
  induction 1 as [t d E|d bl o d' R IH V E].
  - unfold create_dom, parse_root in E. apply bind_ok in E as ([ok d0] & E1 & E2).
    destruct ok; [|discriminate]. injection E2 as <-.
    pose proof (g_parse None t 1 [(1, [])] empty_dom) as G. rewrite E1 in G. apply G, small_empty.
  - pose proof (g_run bl o d) as G. rewrite E in G. apply G, IH.
Qed.

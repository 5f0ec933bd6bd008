(** * The abandonable functions compute what the plain ones compute. *)
From Coq Require Import List NArith Arith Bool Lia.
From Verif Require Import Base TrieModel DomModel ParserModel EditModel ReadModel DomSpec ApiSpec
  CrashModel.
Import ListNotations.
Local Open Scope nat_scope.

Lemma snd_bind {A B} (x : ab A) (f : A -> ab B) :
  snd (a_bind x f) = bind (snd x) (fun a => snd (f a)).
Proof. unfold a_bind. now destruct (snd x). Qed.
Lemma bind_ext {A B} (x : outcome A) (f g : A -> outcome B) :
  (forall a, f a = g a) -> bind x f = bind x g.
Proof. intro H. destruct x; simpl; auto. Qed.
Lemma bind_ext2 {A B} (x y : outcome A) (f g : A -> outcome B) :
  x = y -> (forall a, f a = g a) -> bind x f = bind y g.
Proof. intros -> H. now apply bind_ext. Qed.

Lemma bind_assoc {A B C} (x : outcome A) (f : A -> outcome B) (g : B -> outcome C) :
  bind (bind x f) g = bind x (fun a => bind (f a) g).
Proof. now destruct x. Qed.

Lemma s_create ty d : snd (c_create_node ty d) = create_node ty d.
Proof. unfold c_create_node, create_node. now destruct (_ <=? _)%N. Qed.
Lemma s_insert s m d : snd (c_map_insert s m d) = map_insert s m.
Proof. unfold c_map_insert. destruct (map_insert s m) as [[[[|] id] m']| | |]; reflexivity. Qed.

Ltac sb := rewrite snd_bind; apply bind_ext2; [|intros].

Lemma s_intern_bool s d : snd (c_intern_bool s d) = intern_bool s d.
Proof. unfold c_intern_bool, intern_bool. sb. apply s_insert. now destruct a as [[[|] id] m]. Qed.
Lemma s_intern_key s d : snd (c_intern_key s d) = intern_key s d.
Proof. unfold c_intern_key, intern_key. sb. apply s_insert. now destruct a as [[[|] id] m]. Qed.
Lemma s_intern_val s d : snd (c_intern_val s d) = intern_val s d.
Proof. unfold c_intern_val, intern_val. sb. apply s_insert. now destruct a as [[[|] id] m]. Qed.
Lemma s_add_property id k v d : snd (c_add_property id k v d) = add_property id k v d.
Proof.
  unfold c_add_property, add_property. sb. apply s_intern_key. destruct a as [kid d1].
  sb. apply s_intern_val. now destruct a as [vid d2].
Qed.
Lemma s_add_bool id b d : snd (c_add_bool_property id b d) = add_bool_property id b d.
Proof. unfold c_add_bool_property, add_bool_property. sb. apply s_intern_bool. now destruct a. Qed.
Lemma s_set_tag tag id p d : snd (c_set_tag tag id p d) = set_tag tag id p d.
Proof.
  unfold c_set_tag, set_tag. sb. apply s_insert. destruct a as [[[|] t] m]; [|reflexivity].
  rewrite snd_bind. reflexivity.
Qed.
Lemma s_update_refs n p s d : snd (c_update_refs n p s d) = Ok (update_refs n p s d).
Proof.
  unfold c_update_refs, update_refs. destruct (_ && _); [|reflexivity].
  destruct s as [|[q t] s]; [reflexivity|]. simpl. now destruct (q =? p).
Qed.
Lemma s_text_node t i tag d : snd (c_parse_text_node t i tag d) = parse_text_node t i tag d.
Proof.
  unfold c_parse_text_node, parse_text_node. sb. apply s_create. destruct a as [id d1].
  rewrite snd_bind. simpl. sb. reflexivity. destruct a as [raw j]. sb; reflexivity.
Qed.
Lemma s_attr_loop fuel t id : forall can i d,
  snd (c_attr_loop fuel t id can i d) = attr_loop fuel t id can i d.
Proof.
  induction fuel as [|f IH]; intros can i d; cbn [c_attr_loop attr_loop];
    (destruct (i <? length t); [|reflexivity]); sb; try reflexivity;
    (destruct (a =? cGT)%N; [reflexivity|]); [reflexivity|].
  sb.
  - destruct (a =? cSLASH)%N; [reflexivity|]. destruct (negb (is_blank a)); [|reflexivity].
    sb. reflexivity. destruct a0 as [key j]. destruct (current_char t j =? cEQ)%N.
    + sb. reflexivity. destruct a0 as [v j']. sb. apply s_add_property. reflexivity.
    + sb. apply s_add_bool. reflexivity.
  - destruct a0 as [[can' j] d1]. sb. reflexivity. apply IH.
Qed.
Lemma s_document_node t i ex d :
  snd (c_parse_document_node t i ex d) = parse_document_node t i ex d.
Proof.
  unfold c_parse_document_node, parse_document_node. sb. apply s_create. destruct a as [id d1].
  sb. reflexivity. sb. reflexivity. sb. reflexivity. destruct a1 as [can size].
  sb. reflexivity. sb. reflexivity. sb. apply s_attr_loop. destruct a3 as [[can' j] d2].
  sb. apply s_set_tag. reflexivity.
Qed.
Lemma s_step bl t st i prev s d : snd (c_parse_step bl t st i prev s d) = parse_step bl t st i prev s d.
Proof.
  assert (X : forall i, snd (do* '(id, j, d) := c_parse_text_node t i (containing_tag s) d in
    do* d := c_update_refs id prev s d in a_ret (Some (j, id, s), d)) =
    (let* '(id, j, d) := parse_text_node t i (containing_tag s) d in
     Ok (Some (j, id, s), update_refs id prev s d))).
  { intro i'. sb. apply s_text_node. destruct a as [[id j] d1].
    rewrite snd_bind, s_update_refs. reflexivity. }
  unfold c_parse_step, parse_step. sb. reflexivity. destruct (a =? cLT)%N; [|apply X].
  sb. reflexivity. destruct a0. { sb; reflexivity. }
  sb. reflexivity. sb. reflexivity. destruct a1.
  - destruct (if st <? length s then _ else _) as [pr st']. sb; reflexivity.
  - destruct (_ || _); [|apply X]. sb. apply s_document_node. destruct a1 as [[[[id can] tag] j] d1].
    rewrite snd_bind, s_update_refs. cbn [bind]. destruct can; [|reflexivity].
    now destruct (max_depth <=? length s).
Qed.
Lemma s_loop fuel bl t st : forall i prev s d,
  snd (c_parse_loop fuel bl t st i prev s d) = parse_loop fuel bl t st i prev s d.
Proof.
  induction fuel as [|f IH]; intros; cbn [c_parse_loop parse_loop];
    (destruct (i <? length t); [|reflexivity]); [reflexivity|].
  sb. apply s_step. destruct a as [[[[i' p'] s']|] d1]; [|reflexivity].
  sb. reflexivity. apply IH.
Qed.
Lemma s_parse_extra bl t d : snd (c_parse_extra bl t d) = parse_extra bl t d.
Proof. unfold c_parse_extra, parse_extra, parse. sb. reflexivity. apply s_loop. Qed.
Lemma s_add_bools id l : forall d, snd (c_add_bools id l d) = add_bools id l d.
Proof. induction l as [|b l IH]; intro d; cbn [c_add_bools add_bools]; [reflexivity|]. sb. apply s_add_bool. apply IH. Qed.
Lemma s_add_props id l : forall d, snd (c_add_props id l d) = add_props id l d.
Proof. induction l as [|[k v] l IH]; intro d; cbn [c_add_props add_props]; [reflexivity|]. sb. apply s_add_property. apply IH. Qed.
Lemma s_document_element dn d : snd (c_parse_document_element dn d) = parse_document_element dn d.
Proof.
  unfold c_parse_document_element, parse_document_element. sb. apply s_create. destruct a as [id d1].
  sb. apply s_set_tag. sb. apply s_add_bools. sb. apply s_add_props. reflexivity.
Qed.
Lemma s_text_element s d : snd (c_parse_text_element s d) = parse_text_element s d.
Proof.
  unfold c_parse_text_element, parse_text_element. sb. apply s_create. destruct a as [id d1].
  rewrite snd_bind. simpl. sb; reflexivity.
Qed.
Lemma s_set_property id k v d : snd (c_set_property_value id k v d) = set_property_value id k v d.
Proof.
  unfold c_set_property_value, set_property_value. sb. reflexivity. destruct (a =? 0); [reflexivity|].
  destruct (prop_idx id a d); [|reflexivity]. sb. apply s_intern_val. destruct a0 as [vid d1].
  now destruct (nth_error (props d1) n).
Qed.
Lemma s_set_text id s d : snd (c_set_text_content id s d) = set_text_content id s d.
Proof.
  unfold c_set_text_content, set_text_content. sb. reflexivity. sb. apply s_text_element.
  now destruct a0.
Qed.
Lemma s_add_text id s a d : snd (c_add_text_to_text_node id s a d) = add_text_to_text_node id s a d.
Proof.
  unfold c_add_text_to_text_node, add_text_to_text_node. sb. reflexivity. sb. reflexivity.
  rewrite snd_bind. reflexivity.
Qed.
Lemma s_try_merge t s a d : snd (c_try_merge t s a d) = try_merge t s a d.
Proof.
  unfold c_try_merge, try_merge. sb. reflexivity. destruct (is_text a0); [|reflexivity].
  sb. reflexivity. sb. reflexivity. sb. apply s_add_text. reflexivity.
Qed.
Lemma s_connect fuel : forall p c d, snd (c_connect_others_loop fuel p c d) = connect_others_loop fuel p c d.
Proof.
  induction fuel as [|f IH]; intros; cbn [c_connect_others_loop connect_others_loop];
    (destruct (0 <? c); [|reflexivity]); [reflexivity|]. rewrite snd_bind. simpl. apply IH.
Qed.
Lemma s_append_refs p x d : snd (c_append_refs p x d) = append_refs p x d.
Proof.
  unfold c_append_refs, append_refs. destruct (first_idx p d).
  - sb. reflexivity. rewrite snd_bind. cbn [snd may_jump bind]. rewrite snd_bind. cbn [snd may_jump bind]. apply s_connect.
  - rewrite snd_bind. cbn [snd may_jump bind]. rewrite snd_bind. cbn [snd may_jump bind]. apply s_connect.
Qed.
Lemma s_prepend_refs p x d : snd (c_prepend_refs p x d) = prepend_refs p x d.
Proof.
  unfold c_prepend_refs, prepend_refs. destruct (first_idx p d).
  - sb. reflexivity. rewrite snd_bind. cbn [snd may_jump bind]. rewrite snd_bind. cbn [snd may_jump bind]. apply s_connect.
  - rewrite snd_bind. cbn [snd may_jump bind]. rewrite snd_bind. cbn [snd may_jump bind]. apply s_connect.
Qed.
Lemma s_replace_refs o x d : snd (c_replace_refs o x d) = replace_refs o x d.
Proof.
  unfold c_replace_refs, replace_refs. sb. reflexivity. sb. reflexivity. sb; [|reflexivity].
  destruct (parent_idx o d); [|reflexivity]. apply s_connect.
Qed.

Lemma s_append_doc p e d : snd (c_append_document_node p e d) = append_document_node p e d.
Proof.
  unfold c_append_document_node, append_document_node. sb. apply s_document_element.
  destruct a as [x d1]. destruct (x =? 0); [reflexivity|]. sb. apply s_append_refs. reflexivity.
Qed.
Lemma s_prepend_doc p e d : snd (c_prepend_document_node p e d) = prepend_document_node p e d.
Proof.
  unfold c_prepend_document_node, prepend_document_node. sb. apply s_document_element.
  destruct a as [x d1]. destruct (x =? 0); [reflexivity|]. sb. apply s_prepend_refs. reflexivity.
Qed.
Lemma s_replace_doc p e d : snd (c_replace_with_document_node p e d) = replace_with_document_node p e d.
Proof.
  unfold c_replace_with_document_node, replace_with_document_node. sb. apply s_document_element.
  destruct a as [x d1]. destruct (x =? 0); [reflexivity|]. sb. apply s_replace_refs. reflexivity.
Qed.
Lemma s_append_text p s d : snd (c_append_text_node p s d) = append_text_node p s d.
Proof.
  unfold c_append_text_node, append_text_node. sb. apply s_text_element.
  destruct a as [x d1]. destruct (x =? 0); [reflexivity|]. destruct (0 <? get_first_child p d1).
  - sb. reflexivity. sb. apply s_try_merge. destruct a0 as [[|] d2].
    + sb; reflexivity.
    + sb. apply s_append_refs. reflexivity.
  - sb. apply s_append_refs. reflexivity.
Qed.
Lemma s_prepend_text p s d : snd (c_prepend_text_node p s d) = prepend_text_node p s d.
Proof.
  unfold c_prepend_text_node, prepend_text_node. sb. apply s_text_element.
  destruct a as [x d1]. destruct (x =? 0); [reflexivity|]. destruct (0 <? get_first_child p d1).
  - sb. apply s_try_merge. destruct a as [[|] d2].
    + sb; reflexivity.
    + sb. apply s_prepend_refs. reflexivity.
  - sb. apply s_prepend_refs. reflexivity.
Qed.
Lemma s_try_both o x d : snd (c_try_merge_both o x d) = try_merge_both o x d.
Proof.
  assert (X : forall n d0, snd (match next_idx o d0 with
       | Some j => c_try_merge (snd (at_idx (nexts d0) j)) (n_id n) false d0
       | None => a_ret (false, d0) end) = match next_idx o d0 with
       | Some j => try_merge (snd (at_idx (nexts d0) j)) (n_id n) false d0
       | None => Ok (false, d0) end).
  { intros n d0. destruct (next_idx o d0); [apply s_try_merge|reflexivity]. }
  unfold c_try_merge_both, try_merge_both. sb. reflexivity. destruct (is_text a); [|reflexivity].
  destruct (prev_idx o d); [|apply X]. sb. apply s_try_merge. destruct a0 as [[|] d1]; [reflexivity|apply X].
Qed.
Lemma s_replace_text o s d : snd (c_replace_with_text_node o s d) = replace_with_text_node o s d.
Proof.
  unfold c_replace_with_text_node, replace_with_text_node. sb. apply s_text_element.
  destruct a as [x d1]. destruct (x =? 0); [reflexivity|]. sb. apply s_try_both.
  destruct a as [[|] d2].
  - sb. reflexivity. sb; reflexivity.
  - sb. apply s_replace_refs. reflexivity.
Qed.
Lemma s_append_html bl p h d : snd (c_append_html bl p h d) = append_html bl p h d.
Proof.
  assert (F : forall f d, snd (do* d := c_append_refs p f d in a_ret (f, d)) =
                       (let* d := append_refs p f d in Ok (f, d))).
  { intros. sb. apply s_append_refs. reflexivity. }
  unfold c_append_html, append_html. sb. apply s_parse_extra. destruct a as [[|] d1]; [|reflexivity].
  simpl negb. cbv iota. destruct (0 <? get_first_child p d1); [|apply F].
  sb. reflexivity. sb. reflexivity. destruct (length (nodes d) <? a).
  - destruct (is_text a0); [|apply F]. sb. reflexivity. sb. apply s_try_merge.
    destruct a2 as [[|] d2]; [|apply F]. sb. reflexivity. apply F.
  - destruct (is_text a0); [|apply F]. sb. reflexivity. sb. apply s_try_merge.
    destruct a2 as [[|] d2]; [|apply F]. sb; reflexivity.
Qed.
Lemma s_prepend_html bl p h d : snd (c_prepend_html bl p h d) = prepend_html bl p h d.
Proof.
  assert (F : forall f d, snd (do* d := c_prepend_refs p f d in a_ret (f, d)) =
                       (let* d := prepend_refs p f d in Ok (f, d))).
  { intros. sb. apply s_prepend_refs. reflexivity. }
  unfold c_prepend_html, prepend_html. sb. apply s_parse_extra. destruct a as [[|] d1]; [|reflexivity].
  simpl negb. cbv iota. destruct (0 <? get_first_child p d1); [|apply F].
  sb. reflexivity. destruct (length (nodes d) <? a).
  - sb. reflexivity. destruct (is_text a0); [|apply F]. sb. apply s_try_merge.
    destruct a1 as [[|] d2]; [|apply F]. sb. reflexivity. apply F.
  - sb. reflexivity. destruct (is_text a0); [|apply F]. sb. apply s_try_merge.
    destruct a1 as [[|] d2]; [|apply F]. sb; reflexivity.
Qed.
Lemma s_replace_html bl p h d : snd (c_replace_with_html bl p h d) = replace_with_html bl p h d.
Proof.
  assert (F : forall f d, snd (do* d := c_replace_refs p f d in a_ret (f, d)) =
                       (let* d := replace_refs p f d in Ok (f, d))).
  { intros. sb. apply s_replace_refs. reflexivity. }
  unfold c_replace_with_html, replace_with_html. sb. apply s_parse_extra. destruct a as [[|] d1]; [|reflexivity].
  simpl negb. cbv iota. sb. reflexivity. destruct (length (nodes d) <? a).
  - sb. reflexivity. sb.
    + destruct (is_text a0); [|reflexivity]. destruct (prev_idx p d1); [|reflexivity].
      sb. apply s_try_merge. destruct a1 as [[|] d2]; [|reflexivity]. sb; reflexivity.
    + destruct a1 as [fn d2]. sb. reflexivity. sb; [|apply F].
      destruct (is_text a1); [|reflexivity]. destruct (next_idx p d2); [|reflexivity].
      sb. apply s_try_merge. now destruct a2 as [[|] d3].
  - sb. apply s_try_both. destruct a0 as [[|] d2]; [|apply F]. sb. reflexivity. sb. reflexivity.
    now destruct (prev_idx p d1).
Qed.

(** With no jump, the abandonable functions are the functions of EditModel. *)
Theorem c_run_agrees bl o d : snd (c_run bl o d) = run bl o d.
Proof.
  destruct o; cbn [c_run run]; try reflexivity;
    try (apply s_set_text || apply s_add_bool || apply s_add_property || apply s_add_text || apply s_set_tag);
    (sb; [|now destruct a]).
  - apply s_append_doc.
  - apply s_append_text.
  - apply s_append_html.
  - apply s_prepend_doc.
  - apply s_prepend_text.
  - apply s_prepend_html.
  - apply s_replace_doc.
  - apply s_replace_text.
  - apply s_replace_html.
  - apply s_set_property.
Qed.

(** A call that jumps is abandoned in one of the listed states. *)
Lemma jump_last_bind {A B} (x : ab A) (f : A -> ab B) :
  (forall j, snd x = Longjmp j -> fst x <> []) ->
  (forall a j, snd (f a) = Longjmp j -> fst (f a) <> []) ->
  forall j, snd (a_bind x f) = Longjmp j -> fst (a_bind x f) <> [].
Proof.
  intros H1 H2 j. unfold a_bind. destruct (snd x) eqn:E; simpl; try discriminate.
  - intros E2 E3. apply app_eq_nil in E3. destruct E3. eapply H2; eauto.
  - intros E2 E3. exact (H1 j0 eq_refl E3).
Qed.
